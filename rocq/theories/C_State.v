(* Properties C25 - C29 and C69: chemical states, element amounts, mole
   fractions, serialization and system properties. *)
From Coq Require Import Lqa Permutation.
From Verif Require Import Base M_Strings S_Strings P_Strings M_Formula M_Chem M_Algorithms M_System M_Units P_Units S_System P_System P_Phases
  M_State S_State P_Algorithms P_State P_State2 S_Props P_Props P_State3.

(* A sample system: one aqueous phase and one gas. *)
Definition eH := mkElem $"H" $"Hydrogen" (1 # 1000) [].
Definition eO := mkElem $"O" $"Oxygen" (16 # 1000) [].
Definition eC := mkElem $"C" $"Carbon" (12 # 1000) [].
Definition sH2O := mkSpecies $"H2O" $"H2O" $"H2O" [(eH, 2%Q); (eO, 1%Q)] 0%Q Liquid [].
Definition sCO2 := mkSpecies $"CO2" $"CO2" $"CO2" [(eC, 1%Q); (eO, 2%Q)] 0%Q Aqueous [].
Definition sCO2g := mkSpecies $"CO2(g)" $"CO2" $"CO2" [(eC, 1%Q); (eO, 2%Q)] 0%Q Gas [].
Definition twoPhases := [mkPhase $"Water" [sH2O; sCO2]; mkPhase $"Gas" [sCO2g]].
Definition sample := mkChemicalSystem twoPhases.

(* ---- C25: chemical states ---- *)
Definition valid (sys : ChemicalSystem) (st : State) : Prop :=
  (0 < st_T st)%Q /\ (0 < st_P st)%Q /\ length (st_n st) = length (sys_species sys) /\ Forall (fun x => 0 <= x)%Q (st_n st).
Definition C25_statement : Prop := forall ndebug sys h st, run ndebug sys (newState sys) h = Some st -> valid sys st.

(* False in the default (release) build: amounts are checked by asserts only. *)
Theorem C25_amounts_refuted : ~ C25_statement /\
  (exists st, run true sample (newState sample) [SetArray [1%Q]] = Some st /\ length (st_n st) <> length (sys_species sample)) /\
  (exists st, run true sample (newState sample) [SetAmountN $"H2O" (-1)%Q] = Some st /\ exists x, In x (st_n st) /\ (x < 0)%Q) /\
  (exists st, run true sample (newState sample) [SetMassNU $"H2O" (-5)%Q $"g"] = Some st /\ exists x, In x (st_n st) /\ (x < 0)%Q).
Proof.
  assert (A : exists st, run true sample (newState sample) [SetArray [1%Q]] = Some st /\ length (st_n st) <> length (sys_species sample)).
  { eexists. split; [reflexivity|]. vm_compute. discriminate. }
  split; [|split; [exact A|split]].
  - intro H. destruct A as (st & E & N). apply H in E as (_ & _ & L & _). contradiction.
  - eexists. split; [reflexivity|]. eexists. split; [left; reflexivity|]. reflexivity.
  - eexists. split; [vm_compute; reflexivity|]. eexists. split; [left; reflexivity|]. reflexivity.
Qed.
Print Assumptions C25_amounts_refuted.

(* Temperature and pressure are positive after every history in every build. *)
Theorem C25_temperature_pressure_partial : forall ndebug sys h st, run ndebug sys (newState sys) h = Some st ->
  (0 < st_T st)%Q /\ (0 < st_P st)%Q.
Proof. intros ndebug sys h st H. apply (run_TP _ _ _ _ _ H). cbn. split; reflexivity. Qed.
Print Assumptions C25_temperature_pressure_partial.

(* With asserts on, every state is valid. *)
Theorem C25_debug_partial : forall sys h st, run false sys (newState sys) h = Some st -> valid sys st.
Proof.
  intros sys h st H. destruct (run_TP _ _ _ _ _ H) as [T P]; [cbn; split; reflexivity|].
  destruct (run_amounts _ _ _ _ _ H) as [L F]; [left; reflexivity|apply new_amounts|]. split; [exact T|]. split; [exact P|]. split; assumption.
Qed.
Print Assumptions C25_debug_partial.

(* With asserts off, it is valid when every amount and mass given is not
   negative, whole arrays have the right size, and molar masses are positive.
   Missing: other calls, which are accepted (see the refutation). *)
Theorem C25_release_partial : forall sys h st, run true sys (newState sys) h = Some st ->
  (forall s, In s (sys_species sys) -> (0 < molarMass s)%Q) ->
  (forall l, In (SetArray l) h -> length l = length (sys_species sys) /\ Forall (fun x => 0 <= x)%Q l) ->
  (forall i v, In (SetAmount i v) h \/ In (SetMass i v) h -> (0 <= v)%Q) ->
  (forall n v, In (SetAmountN n v) h \/ In (SetMassN n v) h -> (0 <= v)%Q) ->
  (forall i v u w, In (SetAmountU i v u) h -> convert v u $"mol" = Ok w -> (0 <= w)%Q) ->
  (forall n v u w, In (SetAmountNU n v u) h -> convert v u $"mol" = Ok w -> (0 <= w)%Q) ->
  (forall i v u w, In (SetMassU i v u) h -> convert v u $"kg" = Ok w -> (0 <= w)%Q) ->
  (forall n v u w, In (SetMassNU n v u) h -> convert v u $"kg" = Ok w -> (0 <= w)%Q) -> valid sys st.
Proof.
  intros sys h st H M H1 H2 H3 H4 H5 H6 H7. destruct (run_TP _ _ _ _ _ H) as [T P]; [cbn; split; reflexivity|].
  destruct (run_amounts _ _ _ _ _ H) as [L F]; [right; split; [|exact M]|apply new_amounts|split; [exact T|]; split; [exact P|]; split; assumption].
  intros c I. destruct c; cbn; eauto.
Qed.
Print Assumptions C25_release_partial.

(* A rejected call changes nothing. *)
Theorem C25_rejected : forall ndebug sys c st st', apply ndebug sys c st = (Err, st') -> st' = st.
Proof. exact apply_err. Qed.
Print Assumptions C25_rejected.

(* An accepted call changes exactly the quantity it names, to the value given,
   converted to SI units. *)
Definition only_amount (sys : ChemicalSystem) (i : nat) (v : Q) (st st' : State) : Prop :=
  st_T st' = st_T st /\ st_P st' = st_P st /\ Replaced (st_n st) i v (st_n st').
Definition only_mass (sys : ChemicalSystem) (i : nat) (v : Q) (st st' : State) : Prop :=
  exists s a, nth_error (sys_species sys) i = Some s /\ (a * molarMass s == v)%Q /\ only_amount sys i a st st'.
Definition called (sys : ChemicalSystem) (n : str) (i : nat) : Prop := FirstAt (fun s => name s = n) (sys_species sys) i.
Theorem C25_frame : forall ndebug sys c st st', apply ndebug sys c st = (Ok tt, st') ->
  match c with
  | SetT v => (0 < v)%Q /\ st' = mkState v (st_P st) (st_n st)
  | SetTU v u => exists w, convert v u $"K" = Ok w /\ (0 < w)%Q /\ st' = mkState w (st_P st) (st_n st)
  | SetP v => (0 < v)%Q /\ st' = mkState (st_T st) v (st_n st)
  | SetPU v u => exists w, convert v u $"Pa" = Ok w /\ (0 < v)%Q /\ (0 < w)%Q /\ st' = mkState (st_T st) w (st_n st)
  | SetAll v => (0 <= v)%Q /\ st' = mkState (st_T st) (st_P st) (repeat v (length (st_n st)))
  | SetArray l => st' = mkState (st_T st) (st_P st) l
  | SetAmount i v => only_amount sys i v st st'
  | SetAmountN n v => exists i, called sys n i /\ only_amount sys i v st st'
  | SetAmountU i v u => exists w, convert v u $"mol" = Ok w /\ only_amount sys i w st st'
  | SetAmountNU n v u => exists i w, called sys n i /\ convert v u $"mol" = Ok w /\ only_amount sys i w st st'
  | SetMass i v => only_mass sys i v st st'
  | SetMassN n v => exists i, called sys n i /\ only_mass sys i v st st'
  | SetMassU i v u => exists w, convert v u $"kg" = Ok w /\ only_mass sys i w st st'
  | SetMassNU n v u => exists i w, called sys n i /\ convert v u $"kg" = Ok w /\ only_mass sys i w st st'
  end.
Proof.
  intros ndebug sys c st st' H. apply apply_ok in H.
  assert (A : forall i v, amount_done ndebug i v st st' -> only_amount sys i v st st') by (intros i v [K _]; exact K).
  assert (M : forall i v, mass_set ndebug sys i v st st' -> only_mass sys i v st st').
  { intros i v (s & a & N & E & K & _). exists s, a. auto. }
  destruct c; try exact H; auto.
  - destruct H as [H ->]. split; [exact H|]. f_equal. clear. induction (st_n st); cbn; congruence.
  - destruct H as [H _]. exact H.
  - destruct H as (i & N & H). exists i. auto.
  - destruct H as (w & N & H). exists w. auto.
  - destruct H as (i & w & N & N' & H). exists i, w. auto.
  - destruct H as (i & N & H). exists i. auto.
  - destruct H as (w & N & H). exists w. auto.
  - destruct H as (i & w & N & N' & H). exists i, w. auto.
Qed.
Print Assumptions C25_frame.

Lemma convert_back x a b y : convert x a b = Ok y -> exists z, convert y b a = Ok z /\ (z == x)%Q.
Proof.
  intro H. destruct (str_eq_dec a b) as [->|N].
  - rewrite convert_self in *. injection H as <-. exists x. split; reflexivity.
  - assert (C : convertible a b = Ok true).
    { unfold convert in H. rewrite (proj2 (str_eqb_neq _ _) N) in H. unfold slope in H. unfold convertible.
      destruct (isTemp a && isTemp b); [reflexivity|]. destruct (parseUnit a) as [pa| |]; try discriminate.
      destruct (parseUnit b) as [pb| |]; try discriminate. cbn [bind] in *. unfold checkConvertibleUnits in H.
      destruct (dimensionDU pa []) as [da| |]; try discriminate. destruct (dimensionDU pb []) as [db| |]; try discriminate. cbn [bind] in *.
      destruct (dim_eqb da db); [reflexivity|discriminate]. }
    destruct (convert_roundtrip a b C x) as (y' & z & E1 & E2 & Q). rewrite H in E1. injection E1 as <-. eauto.
Qed.
Lemma convert_back' x a b y y' : convert x a b = Ok y -> (y' == y)%Q -> exists z, convert y' b a = Ok z /\ (z == x)%Q.
Proof.
  intros H Q. destruct (convert_back _ _ _ _ H) as (z & E & Z). unfold convert in E |- *. destruct (str_eqb b a).
  - injection E as <-. exists y'. split; [reflexivity|]. rewrite Q. exact Z.
  - destruct (slope b a) as [s| |]; try discriminate. cbn [bind] in *. destruct (intercept b a) as [t| |]; try discriminate. cbn [bind] in *.
    injection E as <-. eexists. split; [reflexivity|]. rewrite Q. exact Z.
Qed.
(* What was set is what is read back, in the same unit and by the same name. *)
Theorem C25_read_back : forall ndebug sys c st st', apply ndebug sys c st = (Ok tt, st') ->
  match c with
  | SetAmount i v => speciesAmount st' i = Ok v
  | SetAmountN n v => speciesAmountN sys st' n = Ok v
  | SetAmountU i v u => exists x, speciesAmountU st' i u = Ok x /\ (x == v)%Q
  | SetAmountNU n v u => exists x, speciesAmountNU sys st' n u = Ok x /\ (x == v)%Q
  | SetMass i v => exists x, speciesMass sys st' i = Ok x /\ (x == v)%Q
  | SetMassN n v => exists x, speciesMassN sys st' n = Ok x /\ (x == v)%Q
  | SetMassU i v u => exists x, speciesMassU sys st' i u = Ok x /\ (x == v)%Q
  | SetMassNU n v u => exists x, speciesMassNU sys st' n u = Ok x /\ (x == v)%Q
  | _ => True
  end.
Proof.
  intros ndebug sys c st st' H. apply C25_frame in H.
  assert (A : forall i v, only_amount sys i v st st' -> speciesAmount st' i = Ok v).
  { intros i v (_ & _ & _ & E & _). unfold speciesAmount. rewrite E. reflexivity. }
  assert (M : forall i v, only_mass sys i v st st' -> exists x, speciesMass sys st' i = Ok x /\ (x == v)%Q).
  { intros i v (s & a & N & E & K). unfold speciesMass. rewrite (A _ _ K). unfold molarMassAt. rewrite N. cbn. eauto. }
  assert (I : forall n i, called sys n i -> index sys n = Ok i) by (intros n i K; apply index_spec; exact K).
  destruct c; auto.
  - destruct H as (i & N & H). unfold speciesAmountN. rewrite (I _ _ N). cbn. auto.
  - destruct H as (w & N & H). unfold speciesAmountU. rewrite (A _ _ H). cbn [bind]. exact (convert_back _ _ _ _ N).
  - destruct H as (i & w & N & N' & H). unfold speciesAmountNU. rewrite (I _ _ N). cbn [bind]. unfold speciesAmountU. rewrite (A _ _ H). cbn [bind]. exact (convert_back _ _ _ _ N').
  - destruct H as (i & N & H). unfold speciesMassN. rewrite (I _ _ N). cbn [bind]. auto.
  - destruct H as (w & N & H). unfold speciesMassU. destruct (M _ _ H) as (x & E & Q). rewrite E. cbn [bind]. exact (convert_back' _ _ _ _ _ N Q).
  - destruct H as (i & w & N & N' & H). unfold speciesMassNU. rewrite (I _ _ N). cbn [bind]. unfold speciesMassU. destruct (M _ _ H) as (x & E & Q). rewrite E. cbn [bind].
    exact (convert_back' _ _ _ _ _ N' Q).
Qed.
Print Assumptions C25_read_back.

Example C25_nonvacuous :
  (exists st, run false sample (newState sample) [SetTU 25 $"celsius"; SetT (-1); SetPU 2 $"bar"; SetMassNU $"H2O" 36 $"g"; SetAmountN $"foo" 1; SetAmountU 2 500 $"mmol"] = Some st /\
    (st_T st == 29815 # 100)%Q /\ (st_P st == 200000)%Q /\ Forall2 Qeq (st_n st) [2%Q; 0%Q; (1 # 2)%Q]) /\
  apply true sample (SetAmountN $"foo" 1) (newState sample) = (Err, newState sample) /\
  (exists st', apply true sample (SetMassNU $"CO2(g)" 88 $"g") (newState sample) = (Ok tt, st')) /\
  (forall s, In s (sys_species sample) -> (0 < molarMass s)%Q).
Proof.
  split; [|split; [reflexivity|split; [eexists; vm_compute; reflexivity|]]].
  - eexists. split; [vm_compute; reflexivity|]. split; [reflexivity|]. split; [reflexivity|]. repeat constructor.
  - intros s I. vm_compute in I. repeat (destruct I as [<-|I]; [reflexivity|]). destruct I.
Qed.

(* ---- C26: element amounts ---- *)
Theorem C26_linear : forall sys st1 st2 st a b e1 e2, elementAmounts sys st1 = Ok e1 -> elementAmounts sys st2 = Ok e2 ->
  Qsame (st_n st) (combined a b (st_n st1) (st_n st2)) -> exists e, elementAmounts sys st = Ok e /\ Qsame e (combined a b e1 e2).
Proof. exact elementAmounts_linear. Qed.
Print Assumptions C26_linear.

(* The amount of an element is the sum over the phases, in order, of the amounts
   of their species times the coefficient of the element in each; likewise the
   charge, which is the last row. *)
Theorem C26_phases : forall phases st e, elementAmounts (mkChemicalSystem phases) st = Ok e ->
  let sys := mkChemicalSystem phases in
  length e = S (length (sys_elements sys)) /\
  (forall j el, nth_error (sys_elements sys) j = Some el ->
     forall c, (forall ph s, In ph phases -> In s (ph_species ph) -> Coefficient (el_symbol el) s (c s)) ->
     exists x, nth_error e j = Some x /\ (x == grouped (map (fun ph => map c (ph_species ph)) phases) (st_n st))%Q) /\
  (exists x, nth_error e (length (sys_elements sys)) = Some x /\ (x == grouped (map (fun ph => map sp_charge (ph_species ph)) phases) (st_n st))%Q).
Proof. exact elementAmounts_by_phase. Qed.
Print Assumptions C26_phases.

(* Element amounts are defined exactly when there is one amount per species. *)
Theorem C26_defined : forall sys st, (exists e, elementAmounts sys st = Ok e) <-> length (st_n st) = length (sys_species sys).
Proof.
  intros sys st. unfold elementAmounts. destruct (Nat.eqb_spec (length (st_n st)) (length (sys_species sys))).
  - split; eauto.
  - split; [intros (e & H); discriminate|contradiction].
Qed.
Print Assumptions C26_defined.

(* Calls that set different species can be made in any order: the final state,
   and so the element amounts, are the same. *)
Theorem C26_order : forall ndebug sys h1 h2, Permutation h1 h2 ->
  (forall c, In c h1 -> single c) ->
  ForallOrdPairs (fun a b => forall i, targeted sys a i -> targeted sys b i -> False) h1 ->
  forall st, run ndebug sys st h1 = run ndebug sys st h2.
Proof. intros ndebug sys h1 h2 P S A. apply (run_order ndebug sys h1 h2 P); [apply Forall_forall; exact S|exact A]. Qed.
Print Assumptions C26_order.

Example C26_nonvacuous :
  elementAmounts sample (mkState 300 100000 [2%Q; 3%Q; 5%Q]) = Ok [4%Q; 8%Q; 18%Q; 0%Q] /\
  map el_symbol (sys_elements sample) = [$"H"; $"C"; $"O"] /\
  (let h := [SetAmountN $"H2O" 1; SetMassN $"foo" 2; SetAmountNU $"CO2(g)" 1 $"mol"; SetAmount 1 7] in
   (forall c, In c h -> single c) /\ ForallOrdPairs (fun a b => forall i, targeted sample a i -> targeted sample b i -> False) h /\
   option_map st_n (run true sample (newState sample) h) = Some [1%Q; 7%Q; 1%Q]).
Proof.
  assert (F : forall n i j, index sample n = Ok j -> targeted sample (SetAmountN n 0) i -> i = j).
  { intros n i j E K. apply index_spec in K. congruence. }
  assert (G : forall n i, index sample n = Err -> targeted sample (SetAmountN n 0) i -> False).
  { intros n i E K. apply index_spec in K. congruence. }
  split; [reflexivity|]. split; [reflexivity|]. cbv zeta. split; [|split; [|vm_compute; reflexivity]].
  - intros c I. repeat (destruct I as [<-|I]; [exact I || exact Logic.I|]). destruct I.
  - assert (A : index sample $"H2O" = Ok 0) by reflexivity. assert (B : index sample $"CO2(g)" = Ok 2) by reflexivity.
    assert (C : index sample $"foo" = Err) by reflexivity.
    repeat constructor; cbn [targeted]; intros i H1 H2;
    repeat match goal with
    | K : FirstAt _ _ i |- _ => first [apply (F _ _ _ A) in K|apply (F _ _ _ B) in K|exact (G _ _ C K)]
    end; lia.
Qed.

(* ---- C27: mole fractions ---- *)
Theorem C27_distribution : forall n, Forall (fun y => 0 <= y)%Q n -> (0 < Qsum n)%Q ->
  (Qsum (moleFractions n) == 1)%Q /\ Forall (fun a => 0 <= a <= 1)%Q (moleFractions n) /\ length (moleFractions n) = length n /\
  forall i x y, nth_error n i = Some y -> nth_error (moleFractions n) i = Some x -> (x * Qsum n == y)%Q.
Proof.
  intros n F P. destruct (moleFractions_spec n) as (L & E & _). assert (N : ~ (Qsum n == 0)%Q) by lra. specialize (E N).
  destruct (fractions_distribution n (moleFractions n) L P F) as [A B]; [intros i a b H1 H2; eapply E; eauto|]. auto.
Qed.
Print Assumptions C27_distribution.

Theorem C27_empty : forall n, (Qsum n == 0)%Q ->
  moleFractions n = if length n =? 1 then [1%Q] else repeat 0%Q (length n).
Proof. intros n Z. apply moleFractions_spec. exact Z. Qed.
Print Assumptions C27_empty.

(* The fractions in evaluated phase properties are those of the amounts. *)
Theorem C27_phase : forall stdprops sp act T P n d d', phase_update stdprops sp act T P n d = (Ok tt, d') ->
  length (d_G0 d) = length sp -> length (d_H0 d) = length sp -> length (d_V0 d) = length sp -> length (d_Cp0 d) = length sp -> length (d_Cv0 d) = length sp ->
  length (d_x d') = length n /\
  (~ (Qsum n == 0)%Q -> forall i a b, nth_error n i = Some b -> nth_error (d_x d') i = Some a -> (a * Qsum n == b)%Q) /\
  ((Qsum n == 0)%Q -> length n = 1 /\ d_x d' = [1%Q]) /\
  (Forall (fun y => 0 <= y)%Q n -> (0 < Qsum n)%Q -> (Qsum (d_x d') == 1)%Q /\ Forall (fun a => 0 < a <= 1)%Q (d_x d')).
Proof.
  intros stdprops sp act T P n d d' H L1 L2 L3 L4 L5. apply phase_update_ok in H; [|unfold sized; auto].
  pose proof (ok_x _ _ _ _ _ _ _ H) as (Lx & F1 & F2). split; [exact Lx|]. split; [exact F1|]. split.
  - intro Z. pose proof (ok_nonempty _ _ _ _ _ _ _ H Z) as K. rewrite <- (ok_size _ _ _ _ _ _ _ H) in K. split; [exact K|]. rewrite (F2 Z), K. reflexivity.
  - intros Fn Pn. assert (N : ~ (Qsum n == 0)%Q) by lra. specialize (F1 N).
    destruct (fractions_distribution n (d_x d') Lx Pn Fn F1) as [A B]. split; [exact A|].
    pose proof (ok_positive _ _ _ _ _ _ _ H Fn Pn) as Q. apply Forall_forall. intros a I. rewrite Forall_forall in B. split; [|apply B; exact I].
    apply In_nth_error in I as (i & I). destruct (nth_error n i) as [b|] eqn:E; [|apply nth_error_None in E; assert (i < length (d_x d')) by (apply nth_error_Some; congruence); lia].
    specialize (F1 i a b E I). rewrite Forall_forall in Q. specialize (Q b (nth_error_In _ _ E)). nra.
Qed.
Print Assumptions C27_phase.

(* The Jacobian, entry by entry, and as the exact rate of change of the
   fractions when one amount changes. *)
Theorem C27_jacobian : forall n i j, i < length n -> j < length n -> ~ (Qsum n == 0)%Q ->
  exists row v, nth_error (moleFractionsJacobian n) i = Some row /\ nth_error row j = Some v /\
    (v == (delta i j - nth i n 0 / Qsum n) / Qsum n)%Q /\
    (1 < length n -> forall h n', Replaced n j (nth j n 0 + h)%Q n' -> ~ (Qsum n + h == 0)%Q ->
       exists x x', nth_error (moleFractions n) i = Some x /\ nth_error (moleFractions n') i = Some x' /\
         (x' - x == h * v * (Qsum n / (Qsum n + h)))%Q).
Proof.
  intros n i j Li Lj N. destruct (jacobian_entry n i j Li Lj N) as (row & v & E1 & E2 & V). exists row, v.
  split; [exact E1|]. split; [exact E2|]. split; [exact V|]. intros L h n' R Nh.
  assert (En : n' = upd n j (nth j n 0 + h)%Q). { apply (Replaced_unique n j (nth j n 0 + h)%Q); [exact R|apply upd_Replaced; exact Lj]. }
  assert (S : (Qsum n' == Qsum n + h)%Q) by (rewrite En; apply Qsum_upd; exact Lj).
  destruct (moleFractions_spec n) as (L1 & F1 & _). destruct (moleFractions_spec n') as (L2 & F2 & _).
  assert (L' : length n' = length n) by (destruct R; assumption).
  destruct (nth_error (moleFractions n) i) as [x|] eqn:X; [|apply nth_error_None in X; lia].
  destruct (nth_error (moleFractions n') i) as [x'|] eqn:X'; [|apply nth_error_None in X'; lia].
  exists x, x'. split; [reflexivity|]. split; [reflexivity|].
  pose proof (F1 N i x (nth i n 0%Q) (nth_error_nth' _ _ Li) X) as Q1.
  assert (N' : ~ (Qsum n' == 0)%Q) by (rewrite S; exact Nh).
  assert (I : exists b, nth_error n' i = Some b /\ (b == nth i n 0 + delta i j * h)%Q).
  { rewrite En, upd_nth. unfold delta. destruct (Nat.eqb_spec i j) as [->|D].
    - apply Nat.ltb_lt in Lj. rewrite Lj. eexists. split; [reflexivity|]. ring.
    - eexists. split; [cbn; apply nth_error_nth' with (d := 0%Q); exact Li|]. ring. }
  destruct I as (b & Eb & Qb). pose proof (F2 N' i x' b Eb X') as Q2. rewrite S, Qb in Q2. rewrite V.
  assert (Ex : (x == nth i n 0 / Qsum n)%Q) by (rewrite <- Q1; field; exact N).
  assert (Ex' : (x' == (nth i n 0 + delta i j * h) / (Qsum n + h))%Q) by (rewrite <- Q2; field; exact Nh).
  rewrite Ex, Ex'. field. split; assumption.
Qed.
Print Assumptions C27_jacobian.

Theorem C27_jacobian_zero : forall n i j, i < length n -> j < length n -> (Qsum n == 0)%Q ->
  exists row, nth_error (moleFractionsJacobian n) i = Some row /\ nth_error row j = Some 0%Q.
Proof. exact jacobian_zero. Qed.
Print Assumptions C27_jacobian_zero.

(* The Jacobian of the logarithms. *)
Theorem C27_ln_jacobian : forall n J, lnMoleFractionsJacobian n = Ok J -> ~ (Qsum n == 0)%Q ->
  (forall y, In y n -> ~ (y == 0)%Q) /\
  forall i j, i < length n -> j < length n -> exists row v, nth_error J i = Some row /\ nth_error row j = Some v /\
    (v == delta i j / nth i n 0 - 1 / Qsum n)%Q.
Proof. exact ln_jacobian_entry. Qed.
Print Assumptions C27_ln_jacobian.

Example C27_nonvacuous :
  moleFractions [1%Q; 3%Q] = [(1 / 4)%Q; (3 / 4)%Q] /\ moleFractions [0%Q] = [1%Q] /\ moleFractions [0%Q; 0%Q] = [0%Q; 0%Q] /\
  (exists J, lnMoleFractionsJacobian [1%Q; 3%Q] = Ok J) /\ lnMoleFractionsJacobian [0%Q; 3%Q] = UB /\
  (Qsum [1; 3] + 2 == 6)%Q /\ Replaced [1%Q; 3%Q] 1 (3 + 2)%Q [1%Q; (3 + 2)%Q].
Proof.
  split; [reflexivity|]. split; [reflexivity|]. split; [reflexivity|]. split; [eexists; reflexivity|]. split; [reflexivity|]. split; [reflexivity|].
  split; [reflexivity|]. split; [reflexivity|]. intros [|[|j]] H; cbn; auto. congruence.
Qed.

(* ---- C28: serialization ---- *)
(* Any list of scalars and arrays is restored from what was written, whatever the
   memory contained before, when the targets have the same sizes; what follows in
   the array is ignored. *)
Theorem C28_stream : forall junk args targets post, Forall2 same_shape targets args ->
  exists a, stream_from junk args = Ok a /\ length a = args_length args /\ stream_to (a ++ post) targets = Ok args.
Proof.
  intros junk args targets post F. exists (flat args). split; [apply stream_from_ok|]. split; [apply flat_length|].
  unfold stream_to. exact (deserialize_ok args targets [] post F).
Qed.
Print Assumptions C28_stream.

(* The properties of a system and those of a phase. *)
Theorem C28_system : forall phases junk p q post, shaped (length (collectSpecies phases)) (length phases) p ->
  shaped (length (collectSpecies phases)) (length phases) q ->
  exists a, props_serialize junk p = Ok a /\ props_deserialize (a ++ post) q = Ok p.
Proof.
  intros phases junk p q post [P1 P2] [Q1 Q2]. exists (flat (props_args p)). split; [apply stream_from_ok|].
  unfold props_deserialize, stream_to. 
  rewrite (deserialize_ok (props_args p) _ [] post).
  - destruct p. reflexivity.
  - unfold props_args. decompose [and] P1. decompose [and] P2. decompose [and] Q1. decompose [and] Q2.
    repeat (apply Forall2_cons; [cbn; first [exact I|etransitivity; [eassumption|symmetry; assumption]]|]). constructor.
Qed.
Print Assumptions C28_system.
Theorem C28_phase : forall k junk p q post, full k p -> full k q ->
  exists a, phase_serialize junk p = Ok a /\ phase_deserialize (a ++ post) q = Ok p.
Proof.
  intros k junk p q post P Q. eexists. split; [apply stream_from_ok|]. unfold phase_deserialize, stream_to.
  match goal with |- context [flat ?x] => rewrite (deserialize_ok x _ [] post) end.
  - destruct p. reflexivity.
  - unfold full in P, Q. decompose [and] P. decompose [and] Q. repeat (apply Forall2_cons; [cbn; first [exact I|etransitivity; [eassumption|symmetry; assumption]]|]). constructor.
Qed.
Print Assumptions C28_phase.
(* All properties of a system have these sizes: when created, after a successful
   update, and after they were read back. *)
Theorem C28_sizes : forall stdprops phases acts T P n p p' a, shaped (length (collectSpecies phases)) (length phases) (newProps phases) /\
  (shaped (length (collectSpecies phases)) (length phases) p -> props_update stdprops phases acts T P n p = (Ok tt, p') ->
     shaped (length (collectSpecies phases)) (length phases) p') /\
  (shaped (length (collectSpecies phases)) (length phases) p -> props_deserialize a p = Ok p' ->
     shaped (length (collectSpecies phases)) (length phases) p').
Proof.
  intros stdprops phases acts T P n p p' a. rewrite collectSpecies_eq. split; [apply shaped_new|]. split.
  - intros S H. apply (props_update_ok _ _ _ _ _ _ _ _ H S).
  - intros [S1 S2] H. unfold props_deserialize in H. destruct (stream_to _ _) as [l| |] eqn:E; try discriminate. cbn [bind] in H.
    apply deserialize_shape in E. decompose [and] S1. decompose [and] S2. clear S1 S2.
    repeat (apply Forall2_cons_l in E; let b := fresh "b" in let r := fresh "r" in let Sb := fresh "Sb" in
      destruct E as (b & r & Sb & E & ->); destruct b as [?|?]; cbn in Sb; try contradiction).
    inversion E; subst. injection H as <-. unfold shaped. cbn. split; repeat split; (etransitivity; [symmetry; eassumption|assumption]).
Qed.
Print Assumptions C28_sizes.
(* Reading from an array that is too short is not detected. *)
Theorem C28_short : forall targets array, targets <> [] -> length array < args_length targets -> stream_to array targets = UB.
Proof. intros targets array N L. apply deserialize_short; [exact L|exact N]. Qed.
Print Assumptions C28_short.

Example C28_nonvacuous : let p := newProps twoPhases in
  (exists a, props_serialize (fun i => 7%Q) p = Ok a /\ length a = 52) /\
  stream_from (fun _ => 9%Q) [Sc 1; Ar [2%Q; 3%Q]; Ar []; Sc 4] = Ok [1%Q; 2%Q; 3%Q; 4%Q] /\
  stream_to [1%Q; 2%Q; 3%Q; 4%Q; 5%Q] [Sc 0; Ar [0%Q; 0%Q]; Ar []; Sc 0] = Ok [Sc 1; Ar [2%Q; 3%Q]; Ar []; Sc 4] /\
  shaped 3 2 p.
Proof.
  cbv zeta. split; [eexists; split; [vm_compute; reflexivity|reflexivity]|]. split; [reflexivity|]. split; [reflexivity|].
  apply (shaped_new twoPhases).
Qed.

(* ---- C29: properties of phases and of the system ---- *)
(* After a successful evaluation the view of each phase holds the temperature,
   pressure, amounts, total, mole fractions, standard and activity properties of
   that phase, and chemical potentials u = G0 + R T ln a. *)
Theorem C29_phases : forall stdprops phases acts T P n p p', shaped (length (collectSpecies phases)) (length phases) p ->
  props_update stdprops phases acts T P n p = (Ok tt, p') ->
  p_T p' = T /\ p_P p' = P /\ p_n p' = firstn (length (collectSpecies phases)) n /\ length (collectSpecies phases) <= length n /\
  forall pre ph post, phases = pre ++ ph :: post -> exists d, phaseProps phases p' (length pre) = Ok d /\
    PhaseOk stdprops (ph_species ph) (acts (length pre)) T P
      (firstn (length (ph_species ph)) (skipn (length (collectSpecies pre)) n)) d.
Proof.
  intros stdprops phases acts T P n p p' S H. rewrite collectSpecies_eq in *. fold (total phases) in *.
  destruct (props_update_ok _ _ _ _ _ _ _ _ H S) as (_ & ET & EP & L & K). split; [exact ET|]. split; [exact EP|].
  split; [exact (update_amounts _ _ _ _ _ _ _ _ H S)|]. split; [exact L|].
  intros pre ph post E. eexists. split; [rewrite E; apply phaseProps_eq|]. rewrite collectSpecies_eq. exact (K pre ph post E).
Qed.
Print Assumptions C29_phases.

(* The mass of a phase is that of its species. *)
Theorem C29_phase_mass : forall sp d, (phase_mass sp d == dotQ (d_n d) (map molarMass sp))%Q.
Proof.
  intros sp d. unfold phase_mass, dotQ. rewrite combine_map_r || idtac.
  enough (G : forall l a, (fold_left (fun sum p => sum + fst p * molarMass (snd p))%Q l a == a + Qsum (map (fun p => fst p * molarMass (snd p))%Q l))%Q).
  { rewrite G, Qplus_0_l. generalize (d_n d). clear. induction sp as [|s sp IH]; intros [|x n]; cbn; try reflexivity. rewrite IH. reflexivity. }
  induction l as [|q l IH]; intro a; cbn; [ring|]. rewrite IH. ring.
Qed.
Print Assumptions C29_phase_mass.

(* The totals of the system are sums over all species of the amount times the
   standard value plus sums over all phases of the total amount times the excess
   value, and are related by S = (H - G)/T, U = H - PV and A = U - TS. *)
Theorem C29_totals : forall stdprops phases acts T P n p p', shaped (length (collectSpecies phases)) (length phases) p ->
  props_update stdprops phases acts T P n p = (Ok tt, p') ->
  exists G H V S U A,
    gibbsEnergy phases p' = Ok G /\ enthalpy phases p' = Ok H /\ volume phases p' = Ok V /\
    entropy phases p' = Ok S /\ internalEnergy phases p' = Ok U /\ helmholtzEnergy phases p' = Ok A /\
    (G == dotQ (p_n p') (p_G0 p') + dotQ (p_nsum p') (p_Gex p'))%Q /\
    (H == dotQ (p_n p') (p_H0 p') + dotQ (p_nsum p') (p_Hex p'))%Q /\
    (V == dotQ (p_n p') (p_V0 p') + dotQ (p_nsum p') (p_Vex p'))%Q /\
    (U == H - P * V)%Q /\ (~ (T == 0)%Q -> (S == (H - G) / T)%Q /\ (A == U - T * S)%Q).
Proof.
  intros stdprops phases acts T P n p p' S H. rewrite collectSpecies_eq in *. fold (total phases) in *.
  pose proof (update_amounts _ _ _ _ _ _ _ _ H S) as En.
  destruct (props_update_ok _ _ _ _ _ _ _ _ H S) as (S' & _). destruct S' as [S1 S2]. decompose [and] S1. decompose [and] S2. clear S1 S2.
  pose proof (total_of _ _ _ _ _ _ _ _ H S d_G0 d_Gex (p_G0 p') (p_Gex p') phase_gibbsEnergy ltac:(reflexivity) ltac:(reflexivity) ltac:(reflexivity) ltac:(assumption) ltac:(assumption)) as EG.
  pose proof (total_of _ _ _ _ _ _ _ _ H S d_H0 d_Hex (p_H0 p') (p_Hex p') phase_enthalpy ltac:(reflexivity) ltac:(reflexivity) ltac:(reflexivity) ltac:(assumption) ltac:(assumption)) as EH.
  pose proof (total_of _ _ _ _ _ _ _ _ H S d_V0 d_Vex (p_V0 p') (p_Vex p') phase_volume ltac:(reflexivity) ltac:(reflexivity) ltac:(reflexivity) ltac:(assumption) ltac:(assumption)) as EV.
  rewrite <- En in EG, EH, EV.
  destruct (over_phases_tot phase_gibbsEnergy phases p') as (G & G1 & G2).
  destruct (over_phases_tot phase_enthalpy phases p') as (Hh & H1' & H2').
  destruct (over_phases_tot phase_volume phases p') as (V & V1 & V2).
  destruct (over_phases_tot phase_entropy phases p') as (Ss & Ss1 & Ss2).
  destruct (over_phases_tot phase_internalEnergy phases p') as (U & U1 & U2).
  destruct (over_phases_tot phase_helmholtzEnergy phases p') as (A & A1 & A2).
  exists G, Hh, V, Ss, U, A. repeat (split; [assumption|]).
  split; [rewrite G2; exact EG|]. split; [rewrite H2'; exact EH|]. split; [rewrite V2; exact EV|].
  assert (EU : (U == Hh - P * V)%Q).
  { rewrite U2, H2', V2. rewrite (tot_lin _ _ _ _ _ _ _ _ H S phase_internalEnergy phase_enthalpy phase_volume 1 (- P)); [ring|].
    intros d _ EP. unfold phase_internalEnergy, molarInternalEnergy, phase_enthalpy, phase_volume. rewrite EP. ring. }
  split; [exact EU|]. intro NT.
  assert (ES : (Ss == (Hh - G) / T)%Q).
  { rewrite Ss2, H2', G2. rewrite (tot_lin _ _ _ _ _ _ _ _ H S phase_entropy phase_enthalpy phase_gibbsEnergy (1 / T) (- 1 / T)); [field; exact NT|].
    intros d ET _. unfold phase_entropy, molarEntropy, phase_enthalpy, phase_gibbsEnergy. rewrite ET. field. exact NT. }
  split; [exact ES|].
  rewrite A2, U2, Ss2. rewrite (tot_lin _ _ _ _ _ _ _ _ H S phase_helmholtzEnergy phase_internalEnergy phase_entropy 1 (- T)); [ring|].
  intros d ET _. unfold phase_helmholtzEnergy, molarHelmholtzEnergy, phase_internalEnergy, phase_entropy. rewrite ET. ring.
Qed.
Print Assumptions C29_totals.

(* Standard entropies, internal and Helmholtz energies of the species. *)
Theorem C29_standard : forall p i g h v, nth_error (p_G0 p) i = Some g -> nth_error (p_H0 p) i = Some h -> nth_error (p_V0 p) i = Some v ->
  ~ (p_T p == 0)%Q -> exists s u a, nth_error (standardEntropies p) i = Some s /\ nth_error (standardInternalEnergies p) i = Some u /\
    nth_error (standardHelmholtzEnergies p) i = Some a /\ (g == h - p_T p * s)%Q /\ (u == h - p_P p * v)%Q /\ (a == u - p_T p * s)%Q.
Proof.
  intros p i g h v Eg Eh Ev N. unfold standardEntropies, standardInternalEnergies, standardHelmholtzEnergies.
  do 3 eexists. split; [apply zip_nth; eassumption|]. split; [apply zip_nth; eassumption|]. split; [apply zip_nth; eassumption|]. cbn beta.
  split; [field; exact N|]. split; [reflexivity|]. field. exact N.
Qed.
Print Assumptions C29_standard.

(* Sample models: standard properties by composition, and an activity model with
   excess properties. *)
Definition stdSample (s : Species) (T P : Q) : outcome Std := Ok (mkStd (molarMass s * T) (molarMass s) 2 3 4).
Definition actSample (i : nat) (T P : Q) (x : list Q) : outcome Act :=
  Ok (mkAct 1 0 0 (inject_Z (Z.of_nat i) + 5) 7 0 0 (map (fun _ => 0%Q) x) (map (fun y => 2 * y)%Q x)).
Example C29_nonvacuous : exists p', props_update stdSample twoPhases actSample 300 100000 [1%Q; 3%Q; 2%Q] (newProps twoPhases) = (Ok tt, p') /\
  shaped (length (collectSpecies twoPhases)) (length twoPhases) (newProps twoPhases) /\
  (exists G, gibbsEnergy twoPhases p' = Ok G /\ (G == 300 * (molarMass sH2O + 3 * molarMass sCO2 + 2 * molarMass sCO2g) + 4 * 5 + 2 * 6)%Q) /\
  (nth 1 (p_u p') 0 == 300 * molarMass sCO2 + (83144621 # 10000000) * 300 * (3 # 2))%Q.
Proof.
  eexists. split; [vm_compute; reflexivity|]. split; [apply (shaped_new twoPhases)|]. split.
  - eexists. split; [vm_compute; reflexivity|]. reflexivity.
  - reflexivity.
Qed.

(* ---- C69: a rejected evaluation leaves the properties as they were ---- *)
Definition C69_statement : Prop := forall stdprops phases acts T P n p p', shaped (length (collectSpecies phases)) (length phases) p ->
  props_update stdprops phases acts T P n p = (Err, p') -> p' = p.
(* False: an absent multi-species phase is rejected after temperature, pressure
   and the phases before it have been overwritten. *)
Theorem C69_unchanged_refuted : ~ C69_statement.
Proof.
  intro H. pose proof (H stdSample (rev twoPhases) actSample 300%Q 100000%Q [2%Q; 0%Q; 0%Q] (newProps (rev twoPhases))) as K.
  assert (R : let u := props_update stdSample (rev twoPhases) actSample 300 100000 [2%Q; 0%Q; 0%Q] (newProps (rev twoPhases)) in (fst u, p_T (snd u)) = (Err, 300%Q)) by (vm_compute; reflexivity).
  destruct (props_update stdSample (rev twoPhases) actSample 300 100000 [2%Q; 0%Q; 0%Q] (newProps (rev twoPhases))) as [r p'].
  cbn [fst snd] in R. cbv zeta in R. injection R as -> ET. specialize (K p' (shaped_new (rev twoPhases)) eq_refl). subst p'. discriminate ET.
Qed.
Print Assumptions C69_unchanged_refuted.
(* What holds: there is a first phase that could not be evaluated; the phases
   before it have the new values and those after it are as they were.  Missing:
   the phases up to it are not restored. *)
Theorem C69_later_phases_partial : forall stdprops phases acts T P n p p', shaped (length (collectSpecies phases)) (length phases) p ->
  props_update stdprops phases acts T P n p = (Err, p') -> exists pre ph post, phases = pre ++ ph :: post /\
  (forall a x b, pre = a ++ x :: b -> exists d, phaseProps phases p' (length a) = Ok d /\
    PhaseOk stdprops (ph_species x) (acts (length a)) T P (firstn (length (ph_species x)) (skipn (length (collectSpecies a)) n)) d) /\
  (forall i, length pre < i -> phaseProps phases p' i = phaseProps phases p i).
Proof.
  intros stdprops phases acts T P n p p' S H. rewrite collectSpecies_eq in *. fold (total phases) in *.
  unfold props_update in H.
  pose proof (update_loop_err stdprops acts T P n phases [] _ p' H S) as (_ & pre & ph & post & E & K1 & K2).
  exists pre, ph, post. split; [exact E|]. split.
  - intros a x b Ea. eexists. split; [rewrite E, Ea, <- app_assoc; apply phaseProps_eq|]. rewrite collectSpecies_eq. exact (K1 a x b Ea).
  - intros i Li. unfold phaseProps. destruct (nth_error phases i) as [x|] eqn:Ex; [|reflexivity].
    assert (L : i < length phases) by (apply nth_error_Some; congruence).
    rewrite numSpeciesUntil_spec by lia. cbn [omap bind]. f_equal. rewrite K2; [reflexivity|cbn; lia|].
    change (total []) with 0. cbn [Nat.add]. rewrite E, firstn_app.
    rewrite firstn_all2 by lia. rewrite total_app. destruct (i - length pre) as [|m] eqn:M; [lia|]. cbn [firstn]. rewrite total_cons. lia.
Qed.
Print Assumptions C69_later_phases_partial.
Example C69_nonvacuous : exists p', props_update stdSample (rev twoPhases ++ rev twoPhases) actSample 300 100000 [2%Q; 0%Q; 0%Q; 1%Q; 1%Q; 1%Q] (newProps (rev twoPhases ++ rev twoPhases)) = (Err, p') /\
  p_nsum p' = [2%Q; 0%Q; 0%Q; 0%Q] /\ p_T p' = 300%Q.
Proof. eexists. split; [vm_compute; reflexivity|]. split; reflexivity. Qed.
