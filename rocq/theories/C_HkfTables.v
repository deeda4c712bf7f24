(* C133: the tabulated parameters of the HKF activity model. *)
From Coq Require Import Lqa.
From Verif Require Import Base M_Math S_Math P_Linear P_Interp P_HkfTables M_HkfTables C_Math.
Local Open Scope nat_scope.

(* ---- Specification ---- *)
(* Conditions that the tables cover: 0 to 500 C and 1 to 5000 bar. *)
Definition covered (T P : Q) : Prop := (273.15 <= T <= 773.15 /\ 100000 <= P <= 500000000)%Q.
Definition gives (f : Q -> Q -> outcome Q) : Prop := forall T P, (covered T P -> exists v, f T P = Ok v) /\ (~ covered T P -> f T P = Err).
Definition within (lo hi : Q) (f : Q -> Q -> outcome Q) : Prop := forall T P v, f T P = Ok v -> (lo <= v <= hi)%Q.
(* Along pressure and temperature, where the conditions satisfy R. *)
Definition rises_with_P (f : Q -> Q -> outcome Q) : Prop := forall T P P' v v', (P <= P')%Q -> f T P = Ok v -> f T P' = Ok v' -> (v <= v')%Q.
Definition falls_with_P (f : Q -> Q -> outcome Q) : Prop := forall T P P' v v', (P <= P')%Q -> f T P = Ok v -> f T P' = Ok v' -> (v' <= v)%Q.
Definition rises_with_T (R : Q -> Q -> Prop) (f : Q -> Q -> outcome Q) : Prop := forall T T' P v v', (T <= T')%Q -> R T' P -> f T P = Ok v -> f T' P = Ok v' -> (v <= v')%Q.
Definition falls_with_T (R : Q -> Q -> Prop) (f : Q -> Q -> outcome Q) : Prop := forall T T' P v v', (T <= T')%Q -> R T' P -> f T P = Ok v -> f T' P = Ok v' -> (v' <= v)%Q.
Definition anywhere (T P : Q) : Prop := True.
(* From 500 bar on, or up to 375 C. *)
Definition not_low (T P : Q) : Prop := (50000000 <= P \/ T <= 648.15)%Q.

Definition C133_temperature_statement : Prop :=
  rises_with_T anywhere debyeHuckelParamA /\ rises_with_T anywhere debyeHuckelParamB /\ falls_with_T anywhere solventParamNaCl /\ rises_with_T anywhere shortRangeInteractionParamNaCl.

(* ---- Proofs ---- *)
Definition table (z : list Q) : Grid := mkGrid pressure_range temperature_range z.
Lemma reg z : length z = 210 -> regular (table z).
Proof. intro L. split; [apply increasingb_spec; vm_compute; reflexivity|]. split; [apply increasingb_spec; vm_compute; reflexivity|]. cbn. rewrite L. repeat split; lia. Qed.
Lemma in_P P : inside pressure_range (pascalToBar P) <-> (100000 <= P <= 500000000)%Q.
Proof.
  unfold inside, pascalToBar, Between. cbn. split.
  - intros (a & b & [= <-] & [= <-] & A & B). lra.
  - intros [A B]. do 2 eexists. split; [reflexivity|]. split; [reflexivity|]. lra.
Qed.
Lemma in_T T : inside temperature_range (kelvinToCelsius T) <-> (273.15 <= T <= 773.15)%Q.
Proof.
  unfold inside, kelvinToCelsius, Between. cbn. split.
  - intros (a & b & [= <-] & [= <-] & A & B). lra.
  - intros [A B]. do 2 eexists. split; [reflexivity|]. split; [reflexivity|]. lra.
Qed.
Definition look (z : list Q) (T P : Q) : outcome Q := bilinear (table z) (pascalToBar P) (kelvinToCelsius T).
Lemma look_covered z T P v : length z = 210 -> look z T P = Ok v -> inside pressure_range (pascalToBar P) /\ inside temperature_range (kelvinToCelsius T).
Proof.
  intros L E. assert (D : {covered T P} + {~ covered T P}).
  { unfold covered. destruct (Qlt_le_dec T 273.15); [right; lra|]. destruct (Qlt_le_dec 773.15 T); [right; lra|]. destruct (Qlt_le_dec P 100000); [right; lra|].
    destruct (Qlt_le_dec 500000000 P); [right; lra|]. left. auto. }
  destruct D as [[A B]|D]. { split; [apply in_P|apply in_T]; auto. }
  exfalso. unfold look in E. rewrite (bilinear_outside _ _ _ (reg z L)) in E; [discriminate|]. cbn [g_x g_y table].
  destruct (Qlt_le_dec T 273.15) as [H|H]. { right. rewrite in_T. lra. } destruct (Qlt_le_dec 773.15 T) as [H'|H']. { right. rewrite in_T. lra. }
  left. rewrite in_P. intro K. apply D. split; auto.
Qed.
Lemma look_gives z : length z = 210 -> gives (look z).
Proof.
  intros L T P. split.
  - intros [A B]. destruct (bilinear_dat (table z) (pascalToBar P) (kelvinToCelsius T) (reg z L)) as (v & _ & _ & _ & _ & E & _); eauto. apply in_P; auto. apply in_T; auto.
  - intro H. destruct (look z T P) as [v| |] eqn:E; auto; exfalso.
    + destruct (look_covered z T P v L E) as [A B]. apply H. split; [apply in_T|apply in_P]; auto.
    + assert (C : bilinear (table z) (pascalToBar P) (kelvinToCelsius T) = Err); [|unfold look in E; congruence].
      apply (bilinear_outside _ _ _ (reg z L)). cbn [g_x g_y table]. destruct (Qlt_le_dec T 273.15) as [K|K]. { right. rewrite in_T. lra. } destruct (Qlt_le_dec 773.15 T) as [K'|K']. { right. rewrite in_T. lra. }
      left. rewrite in_P. intro K2. apply H. split; auto.
Qed.
Lemma look_within z lo hi : length z = 210 -> forallb (fun x => Qle_bool lo x && Qle_bool x hi) z = true -> within lo hi (look z).
Proof.
  intros L F T P v E. destruct (look_covered z T P v L E) as [A B]. apply (bilinear_range (table z) (pascalToBar P) (kelvinToCelsius T) v lo hi (reg z L) A B); auto.
  apply Forall_forall. intros x X. rewrite forallb_forall in F. apply F in X. apply andb_true_iff in X as [X1 X2]. apply Qle_bool_iff in X1, X2. auto.
Qed.
(* Order along rows and columns of a table. *)
Definition rowsb (sg : Q) (z : list Q) : bool :=
  forallb (fun j => forallb (fun i => Qle_bool (sg * dat (table z) i j) (sg * dat (table z) (S i) j)) (seq 0 9)) (seq 0 21).
Definition colsb (sg : Q) (z : list Q) (i0 m : nat) : bool :=
  forallb (fun i => forallb (fun j => Qle_bool (sg * dat (table z) i j) (sg * dat (table z) i (S j))) (seq 0 m)) (seq i0 (10 - i0)).
Lemma look_P sg z : length z = 210 -> rowsb sg z = true -> forall T P P' v v', (P <= P')%Q -> look z T P = Ok v -> look z T P' = Ok v' -> (sg * v <= sg * v')%Q.
Proof.
  intros L F T P P' v v' H E E'. destruct (look_covered z T P v L E) as [A B]. destruct (look_covered z T P' v' L E') as [A' _].
  apply (bilinear_mono_x (table z) sg (pascalToBar P) (pascalToBar P') (kelvinToCelsius T)); auto. { apply reg; auto. } { unfold pascalToBar. lra. }
  intros i j Li Lj. cbn [table g_x g_y] in Li, Lj. change (length pressure_range) with 10 in Li. change (length temperature_range) with 21 in Lj.
  unfold rowsb in F. rewrite forallb_forall in F. assert (F' := F j). rewrite forallb_forall in F'. apply Qle_bool_iff. apply F'; apply in_seq; lia.
Qed.
Lemma look_T sg z i0 m a b : length z = 210 -> colsb sg z i0 m = true -> nth_error pressure_range i0 = Some a -> nth_error temperature_range m = Some b ->
  forall T T' P v v', (T <= T')%Q -> (a <= pascalToBar P)%Q -> (kelvinToCelsius T' <= b)%Q -> look z T P = Ok v -> look z T' P = Ok v' -> (sg * v <= sg * v')%Q.
Proof.
  intros L F NA NB T T' P v v' H HA HB E E'. destruct (look_covered z T P v L E) as [A B]. destruct (look_covered z T' P v' L E') as [_ B'].
  apply (bilinear_mono_y (table z) sg (pascalToBar P) (kelvinToCelsius T) (kelvinToCelsius T') v v' i0 m a b); auto. { apply reg; auto. } { unfold kelvinToCelsius. lra. }
  intros i j Li Li' Lj. cbn [table g_x g_y] in Li'. change (length pressure_range) with 10 in Li'.
  unfold colsb in F. rewrite forallb_forall in F. assert (F' := F i). rewrite forallb_forall in F'. apply Qle_bool_iff. apply F'; apply in_seq; lia.
Qed.
(* Rising in temperature outside the low-pressure corner. *)
Lemma look_T_split sg z : length z = 210 -> colsb sg z 2 20 = true -> colsb sg z 0 15 = true ->
  forall T T' P v v', (T <= T')%Q -> not_low T' P -> look z T P = Ok v -> look z T' P = Ok v' -> (sg * v <= sg * v')%Q.
Proof.
  intros L C1 C2 T T' P v v' H N E E'. destruct (look_covered z T' P v' L E') as [A B]. apply in_P in A. apply in_T in B. destruct N as [N|N].
  - apply (look_T sg z 2 20 500 500 L C1 eq_refl eq_refl T T' P); auto; unfold pascalToBar, kelvinToCelsius; lra.
  - apply (look_T sg z 0 15 1 375 L C2 eq_refl eq_refl T T' P); auto; unfold pascalToBar, kelvinToCelsius; lra.
Qed.
Lemma scaled z c T P v : omap (Qmult c) (look z T P) = Ok v -> exists w, look z T P = Ok w /\ v = (c * w)%Q.
Proof. unfold omap. destruct (look z T P) as [w| |]; cbn; intro H; try discriminate. injection H as <-. eauto. Qed.

(* A parameter is found exactly at the covered conditions, and elsewhere (below
   1 bar or 0 C, above 5000 bar or 500 C) the model throws an error. *)
Theorem C133_covered : gives debyeHuckelParamA /\ gives debyeHuckelParamB /\ gives solventParamNaCl /\ gives shortRangeInteractionParamNaCl.
Proof.
  assert (S : forall c z, length z = 210 -> gives (fun T P => omap (Qmult c) (look z T P))).
  { intros c z L T P. destruct (look_gives z L T P) as [A B]. split; [intro C; destruct (A C) as (v & ->); eexists; reflexivity|intro C; rewrite (B C); reflexivity]. }
  split; [exact (look_gives Agamma_data eq_refl)|]. split; [exact (look_gives Bgamma_data eq_refl)|]. split; [exact (S _ bNaCl_data eq_refl)|exact (S _ bNapClm_data eq_refl)].
Qed.
Print Assumptions C133_covered.

(* Bounds in the units of the activity model: A in (kg/mol)^(1/2), B in 1e8
   (kg/mol)^(1/2)/cm, bNaCl in kg/cal and bNa+Cl- in kg/mol.  A and B are positive. *)
Theorem C133_bounds : within 0.4266 6.0949 debyeHuckelParamA /\ within 0.3248 0.478 debyeHuckelParamB /\
  within (-0.000014376) 0.0000024548 solventParamNaCl /\ within (-0.21789) 0.25964 shortRangeInteractionParamNaCl.
Proof.
  split; [exact (look_within Agamma_data 0.4266 6.0949 eq_refl eq_refl)|]. split; [exact (look_within Bgamma_data 0.3248 0.478 eq_refl eq_refl)|]. split; intros T P v E; apply scaled in E as (w & E & ->).
  - apply (look_within bNaCl_data (-143.76) 24.548 eq_refl eq_refl) in E. lra.
  - apply (look_within bNapClm_data (-21.789) 25.964 eq_refl eq_refl) in E. lra.
Qed.
Print Assumptions C133_bounds.

(* At a given temperature, A never rises and bNaCl never falls with pressure. *)
Theorem C133_pressure : falls_with_P debyeHuckelParamA /\ rises_with_P solventParamNaCl.
Proof.
  split; intros T P P' v v' L E E'.
  - assert (H := look_P (-1) Agamma_data eq_refl eq_refl T P P' v v' L E E'). lra.
  - apply scaled in E as (w & E & ->). apply scaled in E' as (w' & E' & ->). assert (H := look_P 1 bNaCl_data eq_refl eq_refl T P P' w w' L E E'). lra.
Qed.
Print Assumptions C133_pressure.

(* A and B do not rise with temperature everywhere: between 375 C and 400 C they
   fall at pressures below 500 bar. *)
Theorem C133_temperature_refuted : ~ C133_temperature_statement.
Proof.
  intros (H & _). destruct (debyeHuckelParamA 648.15 25000000) as [v| |] eqn:E; try (vm_compute in E; discriminate). destruct (debyeHuckelParamA 673.15 25000000) as [v'| |] eqn:E'; try (vm_compute in E'; discriminate).
  assert (K := H 648.15%Q 673.15%Q 25000000%Q v v' ltac:(lra) I E E'). vm_compute in E. injection E as <-. vm_compute in E'. injection E' as <-. revert K. vm_compute. auto.
Qed.
Print Assumptions C133_temperature_refuted.

(* They rise with temperature at 500 bar and above, and up to 375 C at any
   pressure, where bNaCl falls; bNa+Cl- rises everywhere. *)
Theorem C133_temperature_partial : rises_with_T not_low debyeHuckelParamA /\ rises_with_T not_low debyeHuckelParamB /\ falls_with_T not_low solventParamNaCl /\ rises_with_T anywhere shortRangeInteractionParamNaCl.
Proof.
  split; [|split; [|split]]; intros T T' P v v' L N E E'.
  - assert (H := look_T_split 1 Agamma_data eq_refl eq_refl eq_refl T T' P v v' L N E E'). lra.
  - assert (H := look_T_split 1 Bgamma_data eq_refl eq_refl eq_refl T T' P v v' L N E E'). lra.
  - apply scaled in E as (w & E & ->). apply scaled in E' as (w' & E' & ->). assert (H := look_T_split (-1) bNaCl_data eq_refl eq_refl eq_refl T T' P w w' L N E E'). lra.
  - apply scaled in E as (w & E & ->). apply scaled in E' as (w' & E' & ->). destruct (look_covered bNapClm_data T' P w' eq_refl E') as [A B]. apply in_P in A. apply in_T in B.
    assert (H : (1 * w <= 1 * w')%Q); [|lra]. apply (look_T 1 bNapClm_data 0 20 1 500 eq_refl eq_refl eq_refl eq_refl T T' P); auto; unfold pascalToBar, kelvinToCelsius; lra.
Qed.
Print Assumptions C133_temperature_partial.

(* At each pair of a tabulated temperature and a tabulated pressure the datum of
   the pair is found: that in row j and column i. *)
Definition datum_at (z : list Q) (i j : nat) : option Q := nth_error z (10 * j + i).
Definition exact_on (f : Q -> Q -> outcome Q) (c : Q) (z : list Q) : Prop := forall i j t p d,
  nth_error [0; 25; 50; 75; 100; 125; 150; 175; 200; 225; 250; 275; 300; 325; 350; 375; 400; 425; 450; 475; 500]%Q j = Some t ->
  nth_error [1; 250; 500; 750; 1000; 1500; 2000; 3000; 4000; 5000]%Q i = Some p -> datum_at z i j = Some d ->
  exists v, f (t + 273.15)%Q (p * 100000)%Q = Ok v /\ (v == c * d)%Q.
Theorem C133_tabulated : exact_on debyeHuckelParamA 1 Agamma_data /\ exact_on debyeHuckelParamB 1 Bgamma_data /\
  exact_on solventParamNaCl 0.0000001 bNaCl_data /\ exact_on shortRangeInteractionParamNaCl 0.01 bNapClm_data.
Proof.
  assert (G : forall z i j t p d, length z = 210 -> nth_error temperature_range j = Some t -> nth_error pressure_range i = Some p -> datum_at z i j = Some d ->
    exists v, look z (t + 273.15)%Q (p * 100000)%Q = Ok v /\ (v == d)%Q).
  { intros z i j t p d L NT NP D. destruct C39_partial as [X _]. destruct (X (table z) (reg z L)) as (EX & _). apply (EX i j).
    - exists p. split; auto. unfold pascalToBar. lra.
    - exists t. split; auto. unfold kelvinToCelsius. lra.
    - unfold datum. cbn [table g_x g_z]. change (length pressure_range) with 10. unfold datum_at in D. rewrite <- D. f_equal. lia. }
  split; [|split; [|split]]; intros i j t p d NT NP D.
  - destruct (G Agamma_data i j t p d eq_refl NT NP D) as (v & E & V). exists v. split; [exact E|]. lra.
  - destruct (G Bgamma_data i j t p d eq_refl NT NP D) as (v & E & V). exists v. split; [exact E|]. lra.
  - destruct (G bNaCl_data i j t p d eq_refl NT NP D) as (v & E & V). eexists. split; [unfold solventParamNaCl; unfold look, table in E; unfold bNaCl; rewrite E; reflexivity|]. rewrite V. reflexivity.
  - destruct (G bNapClm_data i j t p d eq_refl NT NP D) as (v & E & V). eexists. split; [unfold shortRangeInteractionParamNaCl; unfold look, table in E; unfold bNapClm; rewrite E; reflexivity|]. rewrite V. reflexivity.
Qed.
Print Assumptions C133_tabulated.

(* Water at 25 C and 1 bar, at 60 C and 100 bar, and at 0.99 bar. *)
Example C133_nonvacuous :
  covered 298.15 100000 /\ (exists v, debyeHuckelParamA 298.15 100000 = Ok v /\ v == 0.5114)%Q /\ (exists v, debyeHuckelParamB 298.15 100000 = Ok v /\ v == 0.3288)%Q /\
  (exists v, debyeHuckelParamA 333.15 10000000 = Ok v /\ 0.5441 < v < 0.5442)%Q /\ debyeHuckelParamA 298.15 99000 = Err /\ not_low 333.15 10000000.
Proof.
  split; [unfold covered; lra|]. split; [eexists; split; [vm_compute; reflexivity|vm_compute; reflexivity]|]. split; [eexists; split; [vm_compute; reflexivity|vm_compute; reflexivity]|].
  split; [eexists; split; [vm_compute; reflexivity|vm_compute; auto]|]. split; [vm_compute; reflexivity|]. right. lra.
Qed.
