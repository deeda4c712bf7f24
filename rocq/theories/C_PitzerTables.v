(* C139: the tabulated Debye-Hueckel slope of Pitzer's model. *)
From Coq Require Import Lqa.
From Verif Require Import Base M_Math S_Math P_Linear P_Interp P_HkfTables M_HkfTables M_PitzerTables C_Math.
Local Open Scope nat_scope.

(* ---- Specification ---- *)
(* Conditions that the table covers: 0 to 350 C and 1 to 5000 bar. *)
Definition covered (T P : Q) : Prop := (273.15 <= T <= 623.15 /\ 100000 <= P <= 500000000)%Q.
(* Both slopes are of one quantity: that of the HKF model, for base-ten logarithms, is
   3 / ln 10 times that of Pitzer's.  The ratio of the latter to the former is near
   ln 10 / 3, about 0.7675, with a relative difference below 5 percent. *)
Definition near_in_ratio (a aphi : Q) : Prop := (0.95 * (0.7675 * a) <= aphi <= 1.05 * (0.7675 * a))%Q.
Definition C139_statement : Prop := forall T P a aphi, Aphi T P = Ok aphi -> debyeHuckelParamA T P = Ok a -> near_in_ratio a aphi.

(* ---- Proofs ---- *)
Lemma reg : regular Aphi_grid.
Proof. split; [apply increasingb_spec; vm_compute; reflexivity|]. split; [apply increasingb_spec; vm_compute; reflexivity|]. cbn. repeat split; lia. Qed.
Lemma in_T T : inside (g_x Aphi_grid) T <-> (273.15 <= T <= 623.15)%Q.
Proof.
  unfold inside, Between. cbn. split.
  - intros (a & b & [= <-] & [= <-] & A & B). unfold celsiusToKelvin in *. lra.
  - intros [A B]. do 2 eexists. split; [reflexivity|]. split; [reflexivity|]. unfold celsiusToKelvin. lra.
Qed.
Lemma in_P P : inside (g_y Aphi_grid) P <-> (100000 <= P <= 500000000)%Q.
Proof.
  unfold inside, Between. cbn. split.
  - intros (a & b & [= <-] & [= <-] & A & B). unfold barToPascal in *. lra.
  - intros [A B]. do 2 eexists. split; [reflexivity|]. split; [reflexivity|]. unfold barToPascal. lra.
Qed.
Lemma not_covered T P : ~ covered T P -> ~ inside (g_x Aphi_grid) T \/ ~ inside (g_y Aphi_grid) P.
Proof.
  intros H. rewrite in_T, in_P. destruct (Qlt_le_dec T 273.15) as [K|K]. { left. lra. } destruct (Qlt_le_dec 623.15 T) as [K'|K']. { left. lra. }
  right. intro K2. apply H. split; auto.
Qed.

(* The slope is found exactly at the covered conditions; elsewhere the model throws. *)
Theorem C139_covered T P : (covered T P -> exists v, Aphi T P = Ok v) /\ (~ covered T P -> Aphi T P = Err).
Proof.
  split.
  - intros [A B]. destruct (bilinear_dat Aphi_grid T P reg) as (v & _ & _ & _ & _ & E & _); [apply in_T; auto|apply in_P; auto|]. exists v. exact E.
  - intro H. apply (bilinear_outside _ _ _ reg). apply not_covered. exact H.
Qed.
Print Assumptions C139_covered.
Lemma was_covered T P v : Aphi T P = Ok v -> inside (g_x Aphi_grid) T /\ inside (g_y Aphi_grid) P.
Proof.
  intro E. assert (D : {covered T P} + {~ covered T P}).
  { unfold covered. destruct (Qlt_le_dec T 273.15); [right; lra|]. destruct (Qlt_le_dec 623.15 T); [right; lra|]. destruct (Qlt_le_dec P 100000); [right; lra|].
    destruct (Qlt_le_dec 500000000 P); [right; lra|]. left. auto. }
  destruct D as [[A B]|D]. { split; [apply in_T|apply in_P]; auto. } rewrite (proj2 (C139_covered T P) D) in E. discriminate.
Qed.

(* The slope is positive and within the range of the table. *)
Theorem C139_bounds T P v : Aphi T P = Ok v -> (0.31695465 <= v <= 1.43881804)%Q.
Proof.
  intro E. destruct (was_covered T P v E) as [A B]. apply (bilinear_range Aphi_grid T P v _ _ reg A B); auto.
  assert (F : forallb (fun x => Qle_bool 0.31695465 x && Qle_bool x 1.43881804) Aphi_data = true) by (vm_compute; reflexivity).
  apply Forall_forall. intros x X. rewrite forallb_forall in F. apply F in X. apply andb_true_iff in X as [X1 X2]. apply Qle_bool_iff in X1, X2. auto.
Qed.
Print Assumptions C139_bounds.

(* It never falls with temperature at a given pressure. *)
Theorem C139_temperature T T' P v v' : (T <= T')%Q -> Aphi T P = Ok v -> Aphi T' P = Ok v' -> (v <= v')%Q.
Proof.
  intros L E E'. destruct (was_covered T P v E) as [A B]. destruct (was_covered T' P v' E') as [A' _].
  assert (F : forallb (fun j => forallb (fun i => Qle_bool (1 * dat Aphi_grid i j) (1 * dat Aphi_grid (S i) j)) (seq 0 14)) (seq 0 12) = true) by (vm_compute; reflexivity).
  assert (K := bilinear_mono_x Aphi_grid 1 T T' P v v' reg A A' B L). cut (1 * v <= 1 * v')%Q; [lra|]. apply K; auto.
  intros i j Li Lj. change (length (g_x Aphi_grid)) with 15 in Li. change (length (g_y Aphi_grid)) with 12 in Lj.
  rewrite forallb_forall in F. assert (F' := F j). rewrite forallb_forall in F'. apply Qle_bool_iff. apply F'; apply in_seq; lia.
Qed.
Print Assumptions C139_temperature.

(* It never rises with pressure at a given temperature. *)
Theorem C139_pressure T P P' v v' : (P <= P')%Q -> Aphi T P = Ok v -> Aphi T P' = Ok v' -> (v' <= v)%Q.
Proof.
  intros L E E'. destruct (was_covered T P v E) as [A B]. destruct (was_covered T P' v' E') as [_ B'].
  assert (F : forallb (fun i => forallb (fun j => Qle_bool (-1 * dat Aphi_grid i j) (-1 * dat Aphi_grid i (S j))) (seq 0 11)) (seq 0 15) = true) by (vm_compute; reflexivity).
  assert (K := bilinear_mono_y Aphi_grid (-1) T P P' v v' 0 11 (celsiusToKelvin 0) (barToPascal 5000) reg A B B' L eq_refl). cut (-1 * v <= -1 * v')%Q; [lra|]. apply in_T in A. apply in_P in B'.
  refine (K _ eq_refl _ _ E E').
  - unfold celsiusToKelvin. lra.
  - unfold barToPascal. lra.
  - intros i j _ Li Lj. change (length (g_x Aphi_grid)) with 15 in Li.
    rewrite forallb_forall in F. assert (F' := F i). rewrite forallb_forall in F'. apply Qle_bool_iff. apply F'; apply in_seq; lia.
Qed.
Print Assumptions C139_pressure.

(* At the tabulated temperatures (in C) and pressures (in bar) it is the tabulated value. *)
Theorem C139_nodes i j t p z : nth_error [0; 25; 50; 75; 100; 125; 150; 175; 200; 225; 250; 275; 300; 325; 350]%Q i = Some t ->
  nth_error [1; 100; 200; 400; 600; 800; 1000; 1500; 2000; 3000; 4000; 5000]%Q j = Some p -> nth_error Aphi_data (15 * j + i) = Some z ->
  exists v, Aphi (t + 273.15) (p * 100000) = Ok v /\ (v == z)%Q.
Proof.
  intros HT HP HZ. destruct (proj1 C39_partial Aphi_grid reg) as (N & _). apply (N i j (t + 273.15)%Q (p * 100000)%Q z).
  - exists (celsiusToKelvin t). split; [exact (map_nth_error celsiusToKelvin _ _ HT)|reflexivity].
  - exists (barToPascal p). split; [exact (map_nth_error barToPascal _ _ HP)|reflexivity].
  - unfold datum. cbn [g_x g_z Aphi_grid]. change (length (map celsiusToKelvin Aphi_temperatures)) with 15. rewrite <- HZ. f_equal. lia.
Qed.
Print Assumptions C139_nodes.

(* Up to 300 C, and at 400 bar and above, the tables of the HKF model and of Pitzer's
   model agree.  Pressures are divided at the points of both tables, so that both are
   bilinear in every cell of the division; agreement is then checked at its corners. *)
Lemma hkf_reg : regular Agamma.
Proof. split; [apply increasingb_spec; vm_compute; reflexivity|]. split; [apply increasingb_spec; vm_compute; reflexivity|]. cbn. repeat split; lia. Qed.
Lemma mix_near t a b a' b' : (0 <= t <= 1)%Q -> near_in_ratio a a' -> near_in_ratio b b' -> near_in_ratio (mix t a b) (mix t a' b').
Proof. unfold near_in_ratio, mix. intros [T0 T1] [A1 A2] [B1 B2]. split; nra. Qed.
Lemma near_eq a a' b b' : (a == a')%Q -> (b == b')%Q -> near_in_ratio a b -> near_in_ratio a' b'.
Proof. unfold near_in_ratio. intros <- <-. auto. Qed.
Lemma mix_proper t a a' b b' : (a == a')%Q -> (b == b')%Q -> (mix t a b == mix t a' b')%Q.
Proof. unfold mix. intros -> ->. reflexivity. Qed.
(* A cell of any increasing axis. *)
Lemma find_cell l p : Increasing l -> 2 <= length l -> inside l p -> exists i s, cell_at l p i s.
Proof.
  intros I L H. assert (R : regular (mkGrid l l (repeat 0%Q (length l * length l)))) by (repeat split; cbn; auto; apply repeat_length).
  destruct (bilinear_spec _ p p R H H) as (v & i & j & s & t & z11 & z21 & z12 & z22 & _ & C & _). exists i, s. exact C.
Qed.
(* Along pressure at the tabulated temperature i: the line through the points k and k+1. *)
Definition line (x1 x2 z1 z2 p : Q) : Q := mix ((p - x1) / (x2 - x1)) z1 z2.
Lemma line_cell l p k x1 x2 : nth_error l k = Some x1 -> nth_error l (S k) = Some x2 -> (x1 < x2)%Q -> (x1 <= p)%Q -> (p <= x2)%Q -> cell_at l p k ((p - x1) / (x2 - x1)).
Proof.
  intros N1 N2 L A B. destruct (relative x1 x2 p L A B) as (s & [S0 S1] & E & ES). exists x1, x2. repeat (split; [assumption|]). split; [split; rewrite <- ES; assumption|]. unfold mix. field. lra.
Qed.
Lemma line_mix x1 x2 z1 z2 r a b : (x1 < x2)%Q -> (line x1 x2 z1 z2 (mix r a b) == mix r (line x1 x2 z1 z2 a) (line x1 x2 z1 z2 b))%Q.
Proof. intros L. unfold line, mix. field. lra. Qed.
Lemma line_proper x1 x2 z1 z2 p q : (p == q)%Q -> (line x1 x2 z1 z2 p == line x1 x2 z1 z2 q)%Q.
Proof. intros E. unfold line, mix. rewrite E. reflexivity. Qed.
(* The division of pressures (in bar), and the cells of the two tables. *)
Definition division : list Q := [1; 100; 200; 250; 400; 500; 600; 750; 800; 1000; 1500; 2000; 3000; 4000; 5000]%Q.
Definition hkf_cell : list nat := [0; 0; 0; 1; 1; 2; 2; 3; 3; 4; 5; 6; 7; 8].
Definition pitzer_cell : list nat := [0; 1; 2; 2; 3; 3; 4; 4; 5; 6; 7; 8; 9; 10].
Definition at_ (l : list Q) (i : nat) : Q := nth i l 0%Q.
Definition hkf_line (k i : nat) (bar : Q) : Q := line (at_ pressure_range k) (at_ pressure_range (S k)) (dat Agamma k i) (dat Agamma (S k) i) bar.
Definition pitzer_line (k i : nat) (bar : Q) : Q := line (at_ Aphi_pressures k) (at_ Aphi_pressures (S k)) (dat Aphi_grid i k) (dat Aphi_grid i (S k)) bar.
Definition nearb (a b : Q) : bool := Qle_bool (0.95 * (0.7675 * a)) b && Qle_bool b (1.05 * (0.7675 * a)).
Lemma nearb_spec a b : nearb a b = true -> near_in_ratio a b.
Proof. unfold nearb. intros H. apply andb_true_iff in H as [H1 H2]. apply Qle_bool_iff in H1, H2. split; assumption. Qed.
(* The cell u of the division lies in the cells of both tables. *)
Definition withinb (l : list Q) (k : nat) (a b : Q) : bool := (S k <? length l) && Qle_bool (at_ l k) a && Qle_bool b (at_ l (S k)) && negb (Qle_bool (at_ l (S k)) (at_ l k)).
Definition placedb (u : nat) : bool := let a := at_ division u in let b := at_ division (S u) in
  withinb pressure_range (nth u hkf_cell 0) a b && withinb Aphi_pressures (nth u pitzer_cell 0) a b.
Definition cornersb (u i : nat) : bool := let k := nth u hkf_cell 0 in let k' := nth u pitzer_cell 0 in
  let a := at_ division u in let b := at_ division (S u) in nearb (hkf_line k i a) (pitzer_line k' i a) && nearb (hkf_line k i b) (pitzer_line k' i b).
Lemma placed u : u < 14 -> placedb u = true.
Proof. intros H. do 14 (destruct u as [|u]; [vm_compute; reflexivity|]). lia. Qed.
Lemma corners u i : u < 14 -> i < 15 -> i < 13 \/ 4 <= u -> cornersb u i = true.
Proof.
  assert (F : forallb (fun u => forallb (fun i => cornersb u i || negb ((i <? 13) || (4 <=? u))) (seq 0 15)) (seq 0 14) = true) by (vm_compute; reflexivity).
  intros Hu Hi H. rewrite forallb_forall in F. assert (F' := F u ltac:(apply in_seq; lia)). rewrite forallb_forall in F'. assert (G := F' i ltac:(apply in_seq; lia)).
  apply orb_true_iff in G as [G|G]; [exact G|]. apply negb_true_iff, orb_false_iff in G as [G1 G2]. apply Nat.ltb_ge in G1. apply Nat.leb_gt in G2. lia.
Qed.
Lemma at_nth l i : i < length l -> nth_error l i = Some (at_ l i).
Proof. intros H. apply nth_error_nth'. exact H. Qed.
Lemma within_spec l k a b : withinb l k a b = true -> nth_error l k = Some (at_ l k) /\ nth_error l (S k) = Some (at_ l (S k)) /\ (at_ l k < at_ l (S k))%Q /\ (at_ l k <= a)%Q /\ (b <= at_ l (S k))%Q.
Proof.
  unfold withinb. intros H. apply andb_true_iff in H as [H H4]. apply andb_true_iff in H as [H H3]. apply andb_true_iff in H as [H1 H2]. apply Nat.ltb_lt in H1.
  split; [apply at_nth; lia|]. split; [apply at_nth; lia|]. apply Qle_bool_iff in H2, H3. split; [|split; assumption].
  destruct (Qlt_le_dec (at_ l k) (at_ l (S k))) as [L|L]; [exact L|]. apply Qle_bool_iff in L. rewrite L in H4. discriminate H4.
Qed.
(* In one cell of the division and of the temperatures. *)
Lemma near_cell T P i s u r a aphi : cell_at (g_x Aphi_grid) T i s -> cell_at division (pascalToBar P) u r -> i < 12 \/ 4 <= u -> Aphi T P = Ok aphi -> debyeHuckelParamA T P = Ok a -> near_in_ratio a aphi.
Proof.
  intros CT CU HR E EA. assert (Li := cell_S _ _ _ _ CT). change (length (g_x Aphi_grid)) with 15 in Li. assert (Lu := cell_S _ _ _ _ CU). change (length division) with 15 in Lu.
  destruct (was_covered T P aphi E) as [IT IP]. destruct (bilinear_dat Aphi_grid T P reg IT IP) as (w & i0 & j0 & s0 & t0 & W & CT0 & CP0 & V). unfold Aphi in E. rewrite E in W. injection W as <-.
  assert (JP : inside (g_x Agamma) (pascalToBar P)). { apply in_P in IP. do 2 eexists. split; [reflexivity|]. split; [reflexivity|]. unfold Between, pascalToBar. lra. }
  assert (JT : inside (g_y Agamma) (kelvinToCelsius T)). { apply in_T in IT. do 2 eexists. split; [reflexivity|]. split; [reflexivity|]. unfold Between, kelvinToCelsius. lra. }
  destruct (bilinear_dat Agamma _ _ hkf_reg JP JT) as (w & p & q & s' & t' & W & DP & DT & VA). unfold debyeHuckelParamA in EA. rewrite EA in W. injection W as <-.
  assert (CT' : cell_at temperature_range (kelvinToCelsius T) i s).
  { destruct CT as (x1 & x2 & N1 & N2 & X & SB & ET). unfold kelvinToCelsius, mix in *. clear - Li N1 N2 X SB ET.
    do 14 (destruct i as [|i]; [injection N1 as <-; injection N2 as <-; unfold celsiusToKelvin in *; do 2 eexists; split; [reflexivity|]; split; [reflexivity|]; unfold mix; split; [lra|]; split; [exact SB|lra]|]). lia. }
  destruct (cell_bounds _ _ _ _ CT) as (_ & _ & _ & _ & _ & SB & _). destruct (cell_bounds _ _ _ _ CU) as (d1 & d2 & N1 & N2 & LD & RB & EP & B1 & B2).
  rewrite (at_nth division u) in N1 by (cbn; lia). rewrite (at_nth division (S u)) in N2 by exact Lu. injection N1 as <-. injection N2 as <-.
  assert (PL := placed u ltac:(lia)). unfold placedb in PL. apply andb_true_iff in PL as [PH PP]. apply within_spec in PH as (H1 & H2 & H3 & H4 & H5). apply within_spec in PP as (K1 & K2 & K3 & K4 & K5).
  set (k := nth u hkf_cell 0) in *. set (k' := nth u pitzer_cell 0) in *. set (bar := pascalToBar P) in *. set (d1 := at_ division u) in *. set (d2 := at_ division (S u)) in *.
  (* The value of the HKF table. *)
  destruct hkf_reg as (IX & IY & _). assert (CH := line_cell _ bar k _ _ H1 H2 H3 ltac:(lra) ltac:(lra)).
  assert (VB : (mix s (hkf_line k i bar) (hkf_line k (S i) bar) == a)%Q).
  { rewrite VA. rewrite (line_eq _ IY (fun y => mix s' (dat Agamma p y) (dat Agamma (S p) y)) _ _ _ _ _ DT CT').
    assert (K := fun y => line_eq _ IX (fun x => dat Agamma x y) _ _ _ _ _ DP CH). cbv beta in K. apply mix_proper; symmetry; [exact (K i)|exact (K (S i))]. }
  (* The value of Pitzer's table. *)
  destruct reg as (JX & JY & _). assert (CQ := line_cell _ bar k' _ _ K1 K2 K3 ltac:(lra) ltac:(lra)).
  assert (CP : cell_at (g_y Aphi_grid) P k' ((bar - at_ Aphi_pressures k') / (at_ Aphi_pressures (S k') - at_ Aphi_pressures k'))).
  { destruct CQ as (x1 & x2 & M1 & M2 & MX & MB & ME). exists (barToPascal x1), (barToPascal x2). split; [exact (map_nth_error barToPascal _ _ M1)|]. split; [exact (map_nth_error barToPascal _ _ M2)|].
    unfold barToPascal. split; [lra|]. split; [exact MB|]. assert (MP : (bar == P * 0.00001)%Q) by reflexivity. unfold mix in *. set (z := ((bar - at_ Aphi_pressures k') / (at_ Aphi_pressures (S k') - at_ Aphi_pressures k'))%Q) in *. clearbody z. clearbody bar. lra. }
  assert (VP : (mix s (pitzer_line k' i bar) (pitzer_line k' (S i) bar) == aphi)%Q).
  { rewrite V. rewrite (line_eq _ JY (fun y => mix s0 (dat Aphi_grid i0 y) (dat Aphi_grid (S i0) y)) _ _ _ _ _ CP0 CP).
    assert (K := fun y => line_eq _ JX (fun x => dat Aphi_grid x y) _ _ _ _ _ CT0 CT). cbv beta in K. rewrite (mix_proper _ _ _ _ _ (K k') (K (S k'))). unfold pitzer_line, line, mix. ring. }
  refine (near_eq _ _ _ _ VB VP _). apply mix_near; [exact SB| |].
  - assert (C := corners u i ltac:(lia) ltac:(lia) ltac:(lia)). apply andb_true_iff in C as [C1 C2]. apply nearb_spec in C1, C2. fold k k' d1 d2 in C1, C2.
    assert (EM : (mix r d1 d2 == bar)%Q) by (rewrite EP; unfold mix; ring).
    refine (near_eq (mix r (hkf_line k i d1) (hkf_line k i d2)) _ (mix r (pitzer_line k' i d1) (pitzer_line k' i d2)) _ _ _ (mix_near r _ _ _ _ RB C1 C2)); unfold hkf_line, pitzer_line; rewrite <- line_mix by assumption; apply line_proper; exact EM.
  - assert (C := corners u (S i) ltac:(lia) ltac:(lia) ltac:(lia)). apply andb_true_iff in C as [C1 C2]. apply nearb_spec in C1, C2. fold k k' d1 d2 in C1, C2.
    assert (EM : (mix r d1 d2 == bar)%Q) by (rewrite EP; unfold mix; ring).
    refine (near_eq (mix r (hkf_line k (S i) d1) (hkf_line k (S i) d2)) _ (mix r (pitzer_line k' (S i) d1) (pitzer_line k' (S i) d2)) _ _ _ (mix_near r _ _ _ _ RB C1 C2)); unfold hkf_line, pitzer_line; rewrite <- line_mix by assumption; apply line_proper; exact EM.
Qed.
Lemma division_increasing : Increasing division.
Proof. apply increasingb_spec. vm_compute. reflexivity. Qed.
Theorem C139_slopes_partial T P a aphi : (T <= 573.15 \/ 40000000 <= P)%Q -> Aphi T P = Ok aphi -> debyeHuckelParamA T P = Ok a -> near_in_ratio a aphi.
Proof.
  intros H E EA. destruct (was_covered T P aphi E) as [IT IP]. apply in_P in IP.
  assert (IU : inside division (pascalToBar P)). { do 2 eexists. split; [reflexivity|]. split; [reflexivity|]. unfold Between, pascalToBar. lra. }
  destruct H as [H|H].
  - destruct (find_cell division (pascalToBar P) division_increasing ltac:(cbn; lia) IU) as (u & r & CU). apply in_T in IT.
    destruct (find_cell (firstn 13 (g_x Aphi_grid)) T) as (i & s & CT); [apply increasingb_spec; vm_compute; reflexivity|cbn; lia|do 2 eexists; split; [reflexivity|]; split; [reflexivity|]; unfold celsiusToKelvin; split; lra|].
    assert (Li := cell_S _ _ _ _ CT). change (length (firstn 13 (g_x Aphi_grid))) with 13 in Li. apply (near_cell T P i s u r); auto; [|left; lia].
    destruct CT as (x1 & x2 & N1 & N2 & C). exists x1, x2. split; [|split; [|exact C]].
    + rewrite <- N1. clear - Li. do 13 (destruct i as [|i]; [reflexivity|]). lia.
    + rewrite <- N2. clear - Li. do 12 (destruct i as [|i]; [reflexivity|]). lia.
  - destruct (bilinear_dat Aphi_grid T P reg IT) as (_ & i & _ & s & _ & _ & CT & _); [apply in_P; exact IP|].
    destruct (find_cell (skipn 4 division) (pascalToBar P)) as (u & r & CU); [apply increasingb_spec; vm_compute; reflexivity|cbn; lia|do 2 eexists; split; [reflexivity|]; split; [reflexivity|]; unfold pascalToBar; split; lra|].
    apply (near_cell T P i s (4 + u) r a aphi CT CU); [right; lia|exact E|exact EA].
Qed.
Print Assumptions C139_slopes_partial.

(* Not at all common conditions: at 350 C and 200 bar they differ by 8 percent. *)
Theorem C139_refuted : ~ C139_statement.
Proof.
  intros H. destruct (Aphi 623.15 20000000) as [v| |] eqn:E; try (vm_compute in E; discriminate). destruct (debyeHuckelParamA 623.15 20000000) as [a| |] eqn:EA; try (vm_compute in EA; discriminate).
  assert (K := H _ _ _ _ E EA). vm_compute in E. injection E as <-. vm_compute in EA. injection EA as <-. destruct K as [_ K]. revert K. vm_compute. auto.
Qed.
Print Assumptions C139_refuted.

Example C139_nonvacuous : covered 298.15 100000 /\ ~ covered 298.15 90000 /\ ~ covered 648.15 30000000 /\
  (exists v, Aphi 298.15 100000 = Ok v /\ v == 0.39147278)%Q /\ (exists v, Aphi 310.65 5050000 = Ok v /\ 0.399 < v < 0.4)%Q /\
  (exists v, Aphi 623.15 500000000 = Ok v /\ v == 0.57686399)%Q /\ Aphi 298.15 90000 = Err /\ Aphi 648.15 30000000 = Err /\
  (exists a v, Aphi 310.65 120000000 = Ok v /\ debyeHuckelParamA 310.65 120000000 = Ok a /\ near_in_ratio a v)%Q.
Proof.
  unfold covered. split; [lra|]. split; [lra|]. split; [lra|]. split; [eexists; split; [vm_compute; reflexivity|reflexivity]|].
  split; [eexists; split; [vm_compute; reflexivity|split; vm_compute; reflexivity]|].
  split; [eexists; split; [vm_compute; reflexivity|reflexivity]|]. split; [vm_compute; reflexivity|]. split; [vm_compute; reflexivity|].
  destruct (Aphi 310.65 120000000) as [v| |] eqn:E; try (vm_compute in E; discriminate). destruct (debyeHuckelParamA 310.65 120000000) as [a| |] eqn:EA; try (vm_compute in EA; discriminate).
  exists a, v. split; [reflexivity|]. split; [reflexivity|]. apply (C139_slopes_partial 310.65 120000000 a v); auto. left. lra.
Qed.
