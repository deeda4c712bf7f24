(* Lemmas on the evaluation of phase and system properties. *)
From Verif Require Import Base M_Strings M_Formula M_Chem M_Algorithms M_System M_Units S_System P_System P_Phases M_State S_State P_Algorithms P_State P_State2 S_Props.
From Coq Require Import Lqa.

Definition sized (k : nat) (d : PhaseData) : Prop :=
  length (d_G0 d) = k /\ length (d_H0 d) = k /\ length (d_V0 d) = k /\ length (d_Cp0 d) = k /\ length (d_Cv0 d) = k.

Section Phase.
Variable stdprops : Species -> Q -> Q -> outcome Std.

Lemma std_loop_spec T P sp : forall i d d', std_loop stdprops sp i T P d = (Ok tt, d') -> forall k, sized k d -> i + length sp <= k ->
  sized k d' /\
  (forall j s, sp @ j == s -> exists a, stdprops s T P = Ok a /\ d_G0 d' @ (i + j) == s_G0 a /\ d_H0 d' @ (i + j) == s_H0 a /\
     d_V0 d' @ (i + j) == s_V0 a /\ d_Cp0 d' @ (i + j) == s_Cp0 a /\ d_Cv0 d' @ (i + j) == s_Cv0 a) /\
  (forall j, j < i -> nth_error (d_G0 d') j = nth_error (d_G0 d) j /\ nth_error (d_H0 d') j = nth_error (d_H0 d) j /\
     nth_error (d_V0 d') j = nth_error (d_V0 d) j /\ nth_error (d_Cp0 d') j = nth_error (d_Cp0 d) j /\ nth_error (d_Cv0 d') j = nth_error (d_Cv0 d) j).
Proof.
  induction sp as [|s sp IH]; intros i d d' H k Z L; cbn [std_loop] in H.
  - injection H as <-. split; [exact Z|]. split; [intros [|j] s E; discriminate|]. intros j _. auto 10.
  - apply with_value_inv in H as [(a & E & H)|[(_ & H & _)|(_ & H & _)]]; try discriminate. cbn in L.
    destruct Z as (Z1 & Z2 & Z3 & Z4 & Z5).
    assert (K := IH _ _ _ H k). clear H.
    match type of K with ?A -> ?B -> _ => assert (K1 : A); [unfold sized; cbn; rewrite !upd_length; auto 10|]; assert (K2 : B) by lia end.
    destruct (K K1 K2) as (Z' & Hs & Hk).
    { split; [exact Z'|]. split.
      * intros [|j] s' E'; cbn in E'.
        -- injection E' as <-. exists a. rewrite Nat.add_0_r. split; [exact E|]. destruct (Hk i (Nat.lt_succ_diag_r i)) as (H1 & H2 & H3 & H4 & H5).
           cbn in H1, H2, H3, H4, H5. rewrite H1, H2, H3, H4, H5, !upd_nth, !Nat.eqb_refl, Z1, Z2, Z3, Z4, Z5.
           destruct (Nat.ltb_spec i k); [auto 10|lia].
        -- destruct (Hs j s' E') as (a' & Ea & R). exists a'. replace (i + S j) with (S i + j) by lia. auto.
      * intros j Lj. destruct (Hk j ltac:(lia)) as (H1 & H2 & H3 & H4 & H5). cbn in H1, H2, H3, H4, H5.
        rewrite H1, H2, H3, H4, H5, !upd_nth. destruct (Nat.eqb_spec j i); [lia|]. cbn. auto 10. }
Qed.

Lemma fold_min l : forall m, (fold_left (fun m y => if Qltb y m then y else m) l m <= m)%Q /\
  (forall y, In y l -> fold_left (fun m y => if Qltb y m then y else m) l m <= y)%Q.
Proof.
  induction l as [|x l IH]; intro m; cbn [fold_left]; [split; [apply Qle_refl|intros y []]|].
  destruct (IH (if Qltb x m then x else m)) as [I1 I2]. set (r := fold_left _ _ _) in *.
  assert (K : ((if Qltb x m then x else m) <= m)%Q /\ ((if Qltb x m then x else m) <= x)%Q).
  { destruct (Qltb x m) eqn:E; [apply Qltb_true in E|apply Qltb_false in E]; split; lra. }
  destruct K as [K1 K2]. split; [lra|]. intros y [<-|I]; [lra|auto].
Qed.
Lemma fold_min_in l : forall m, In (fold_left (fun m y => if Qltb y m then y else m) l m) (m :: l).
Proof.
  induction l as [|x l IH]; intro m; cbn [fold_left]; [left; reflexivity|].
  destruct (IH (if Qltb x m then x else m)) as [E|I]; [|right; right; exact I]. rewrite <- E. destruct (Qltb x m); [right; left|left]; reflexivity.
Qed.
Lemma minCoeff_spec l m : minCoeff l = Ok m -> In m l /\ forall y, In y l -> (m <= y)%Q.
Proof.
  destruct l as [|x l]; cbn; [discriminate|]. intro H. injection H as <-. split; [apply fold_min_in|].
  destruct (fold_min l x) as [A B]. intros y [<-|I]; auto.
Qed.

Lemma zip_nth {A B C} (f : A -> B -> C) a : forall b j x y, a @ j == x -> b @ j == y -> zip_with f a b @ j == f x y.
Proof.
  unfold zip_with. induction a as [|x0 a IH]; intros [|y0 b] [|j] x y E1 E2; try discriminate; cbn in *.
  - congruence.
  - apply IH; assumption.
Qed.
Lemma zip_length {A B C} (f : A -> B -> C) a b : length (zip_with f a b) = Nat.min (length a) (length b).
Proof. unfold zip_with. rewrite map_length, combine_length. reflexivity. Qed.

Lemma phase_update_ok sp act T P n d d' : phase_update stdprops sp act T P n d = (Ok tt, d') -> sized (length sp) d ->
  PhaseOk stdprops sp act T P n d'.
Proof.
  unfold phase_update. intros H Z. destruct (Nat.eqb_spec (length n) (length sp)) as [L|]; cbn [negb] in H; [|discriminate].
  destruct (std_loop _ _ _ _ _ _) as [r d2] eqn:S. destruct r as [[]| |]; try discriminate.
  apply std_loop_spec with (k := length sp) in S; [|exact Z|lia]. destruct S as (Z2 & Hs & _).
  set (x := if Qeq_bool (sumQ n) 0 then _ else _) in H. pose proof (sumQ_Qsum n) as Q.
  apply with_value_inv in H as [(m & M & H)|[(_ & H & _)|(_ & H & _)]]; try discriminate.
  destruct (Qeq_bool m 0) eqn:M0; [discriminate|]. apply Qeq_bool_false in M0.
  apply with_value_inv in H as [(a & A & H)|[(_ & H & _)|(_ & H & _)]]; try discriminate.
  destruct ((length (a_ln_g a) =? length sp) && (length (a_ln_a a) =? length sp)) eqn:Ls; cbn [negb] in H; [|discriminate].
  apply andb_true_iff in Ls as [Lg La]. apply Nat.eqb_eq in Lg, La. injection H as <-.
  assert (Fx : Fractions n x).
  { unfold x. destruct (Qeq_bool (sumQ n) 0) eqn:E.
    - apply Qeq_bool_iff in E. rewrite Q in E. split; [apply map_length|]. split; [contradiction|]. intros _. rewrite <- L.
      destruct (Nat.eqb_spec (length n) 1) as [L1|].
      + destruct n as [|y [|z n]]; try discriminate. reflexivity.
      + clear. induction n; cbn; congruence.
    - apply Qeq_bool_false in E. split; [apply map_length|]. split; [|intro K; rewrite <- Q in K; contradiction].
      intros _ i u v H1 H2. rewrite nth_error_map, H1 in H2. injection H2 as <-. rewrite <- Q. field. exact E. }
  assert (Hz : (Qsum n == 0)%Q -> length sp = 1).
  { intro E. destruct Fx as (_ & _ & Fx). specialize (Fx E). rewrite <- L. destruct (Nat.eqb_spec (length n) 1) as [L1|]; [exact L1|].
    apply minCoeff_spec in M as [I _]. rewrite Fx in I. apply repeat_spec in I. subst. exfalso. apply M0. reflexivity. }
  constructor; cbn; auto.
  - intros Fn Pn. apply Forall_forall. intros y I. rewrite Forall_forall in Fn. pose proof Fn as Fn'. specialize (Fn y I).
    destruct (Qlt_le_dec 0 y) as [K|K]; [exact K|]. exfalso. apply M0. apply minCoeff_spec in M as [Im Mm].
    apply In_nth_error in I as (i & I). destruct Fx as (Lx & Fx & _). specialize (Fx ltac:(lra)).
    destruct (nth_error x i) as [b|] eqn:B; [|apply nth_error_None in B; assert (i < length n) by (apply nth_error_Some; congruence); lia].
    pose proof (Fx _ _ _ I B) as Fb. assert (B0 : (b == 0)%Q) by nra. specialize (Mm b (nth_error_In _ _ B)).
    apply In_nth_error in Im as (j & Ij). destruct (nth_error n j) as [c|] eqn:C; [|apply nth_error_None in C; assert (j < length x) by (apply nth_error_Some; congruence); lia].
    pose proof (Fn' c (nth_error_In _ _ C)) as C0. pose proof (Fx j m c C Ij) as Mx. nra.
  - exists a. assert (E : (if Qeq_bool (sumQ n) 0 then Ok (zeroAct (length sp)) else act T P x) = Ok a) by exact A.
    split; [|split; [|auto 12]].
    + intro K. destruct (Qeq_bool (sumQ n) 0) eqn:E0; [apply Qeq_bool_iff in E0; rewrite Q in E0; contradiction|exact E].
    + intro K. destruct (Qeq_bool (sumQ n) 0) eqn:E0; [|apply Qeq_bool_false in E0; rewrite Q in E0; contradiction]. injection E as <-. reflexivity.
  - intros j g la G1 G2. eexists. split; [apply zip_nth; eassumption|]. reflexivity.
  - destruct Z2 as (Z1 & Z2 & Z3 & Z4 & Z5). repeat (split; [assumption|]). rewrite zip_length, Z1, La. apply Nat.min_id.
Qed.
End Phase.

(* ---- Arrays of the system ---- *)
Lemma segment_put {A} (l v : list A) b k : length v = k -> b + k <= length l -> segment (put_segment l b v) b k = v.
Proof.
  intros <- L. unfold segment, put_segment. rewrite skipn_app, skipn_all2 by (rewrite firstn_length; lia).
  rewrite firstn_length, Nat.min_l by lia. rewrite Nat.sub_diag. cbn [skipn app].
  rewrite firstn_app, Nat.sub_diag, firstn_all. cbn. apply app_nil_r.
Qed.
Lemma put_length {A} (l v : list A) b : b + length v <= length l -> length (put_segment l b v) = length l.
Proof. intro L. unfold put_segment. rewrite !app_length, firstn_length, skipn_length. lia. Qed.
Lemma put_nth {A} (l v : list A) b i : b + length v <= length l ->
  nth_error (put_segment l b v) i = if (b <=? i) && (i <? b + length v) then nth_error v (i - b) else nth_error l i.
Proof.
  intro L. unfold put_segment. destruct (Nat.leb_spec b i) as [B|B]; cbn [andb].
  - rewrite nth_error_app2 by (rewrite firstn_length; lia). rewrite firstn_length, Nat.min_l by lia.
    destruct (Nat.ltb_spec i (b + length v)).
    + apply nth_error_app1. lia.
    + rewrite nth_error_app2 by lia. rewrite nth_error_skipn. f_equal. lia.
  - rewrite nth_error_app1 by (rewrite firstn_length; lia).
    clear L. revert b B. revert i. induction l as [|x l IH]; intros i [|b] B; try lia; destruct i; cbn; auto. apply IH. lia.
Qed.
Lemma segment_nth {A} (l : list A) b k i : nth_error (segment l b k) i = if i <? k then nth_error l (b + i) else None.
Proof.
  unfold segment. destruct (Nat.ltb_spec i k) as [L|L].
  - rewrite <- nth_error_skipn. generalize (skipn b l). intro s. revert k i L. induction s as [|x s IH]; intros [|k] [|i] L; try lia; cbn; auto. apply IH. lia.
  - apply nth_error_None. rewrite firstn_length. lia.
Qed.
Lemma segment_length {A} (l : list A) b k : b + k <= length l -> length (segment l b k) = k.
Proof. intro L. unfold segment. rewrite firstn_length, skipn_length. lia. Qed.
Lemma segment_put_other {A} (l v : list A) b b' k' : b + length v <= length l -> b' + k' <= b \/ b + length v <= b' ->
  segment (put_segment l b v) b' k' = segment l b' k'.
Proof.
  intros L D. apply list_ext. intro i. rewrite !segment_nth. destruct (Nat.ltb_spec i k'); [|reflexivity].
  rewrite put_nth by exact L. destruct (Nat.leb_spec b (b' + i)), (Nat.ltb_spec (b' + i) (b + length v)); cbn; auto; lia.
Qed.
Lemma nth_upd {A} (l : list A) i j v d : j < length l -> nth j (upd l i v) d = if j =? i then v else nth j l d.
Proof.
  intro L. pose proof (upd_nth l i v j) as E. destruct (nth_error l j) as [a|] eqn:F; [|apply nth_error_None in F; lia].
  rewrite (nth_error_nth _ _ d F). destruct (Nat.eqb_spec j i) as [->|N].
  - rewrite (proj2 (Nat.ltb_lt _ _) L) in E. exact (nth_error_nth _ _ d E).
  - exact (nth_error_nth _ _ d E).
Qed.

Definition shaped (N K : nat) (p : Props) : Prop :=
  (length (p_Ts p) = K /\ length (p_Ps p) = K /\ length (p_nsum p) = K /\ length (p_Vex p) = K /\ length (p_VexT p) = K /\
   length (p_VexP p) = K /\ length (p_Gex p) = K /\ length (p_Hex p) = K /\ length (p_Cpex p) = K /\ length (p_Cvex p) = K) /\
  (length (p_n p) = N /\ length (p_x p) = N /\ length (p_G0 p) = N /\ length (p_H0 p) = N /\ length (p_V0 p) = N /\
   length (p_Cp0 p) = N /\ length (p_Cv0 p) = N /\ length (p_ln_g p) = N /\ length (p_ln_a p) = N /\ length (p_u p) = N).
Definition full (k : nat) (d : PhaseData) : Prop :=
  length (d_n d) = k /\ length (d_x d) = k /\ length (d_G0 d) = k /\ length (d_H0 d) = k /\ length (d_V0 d) = k /\
  length (d_Cp0 d) = k /\ length (d_Cv0 d) = k /\ length (d_ln_g d) = k /\ length (d_ln_a d) = k /\ length (d_u d) = k.

Lemma put_shaped N K p i b d k : shaped N K p -> full k d -> b + k <= N -> shaped N K (put_view p i b d).
Proof.
  intros [S1 S2] F L. unfold shaped, full in *. cbn. rewrite !upd_length. split; [exact S1|].
  decompose [and] S2. decompose [and] F. rewrite !put_length by lia. auto 12.
Qed.
Lemma view_put N K p i b d k : shaped N K p -> full k d -> b + k <= N -> i < K -> view (put_view p i b d) i b k = d.
Proof.
  intros [S1 S2] F L I. decompose [and] S1. decompose [and] S2. unfold full in F. decompose [and] F. destruct d. unfold view, put_view. cbn in *.
  rewrite !segment_put by lia. rewrite !nth_upd by lia. rewrite !Nat.eqb_refl. reflexivity.
Qed.
Lemma view_put_other N K p i b d k i' b' k' : shaped N K p -> full k d -> b + k <= N -> i' < K -> i' <> i -> b' + k' <= b \/ b + k <= b' ->
  view (put_view p i b d) i' b' k' = view p i' b' k'.
Proof.
  intros [S1 S2] F L I D R. decompose [and] S1. decompose [and] S2. unfold full in F. decompose [and] F. unfold view, put_view. cbn.
  rewrite !segment_put_other by lia. rewrite !nth_upd by lia. apply Nat.eqb_neq in D. rewrite !D. reflexivity.
Qed.
Lemma view_sized N K p i b k : shaped N K p -> b + k <= N -> sized k (view p i b k).
Proof. intros [_ S2] L. decompose [and] S2. unfold sized. cbn. rewrite !segment_length by lia. auto. Qed.
Lemma PhaseOk_full sp std act T P n d : PhaseOk std sp act T P n d -> full (length sp) d.
Proof.
  intro H. destruct (ok_x _ _ _ _ _ _ _ H) as (Lx & _). pose proof (ok_n _ _ _ _ _ _ _ H) as En. pose proof (ok_size _ _ _ _ _ _ _ H) as Es.
  pose proof (ok_lengths _ _ _ _ _ _ _ H) as Ls. decompose [and] Ls. unfold full. rewrite En, Lx. auto 12.
Qed.
Lemma shaped_new phases : shaped (total phases) (length phases) (newProps phases).
Proof. unfold shaped, newProps, total. cbn. rewrite !repeat_length, ?collectSpecies_eq. auto 25. Qed.

Section System.
Variable stdprops : Species -> Q -> Q -> outcome Std.

Lemma total_app a b : total (a ++ b) = total a + total b.
Proof. unfold total. rewrite map_app, concat_app, app_length. reflexivity. Qed.
Lemma total_cons a b : total (a :: b) = length (ph_species a) + total b.
Proof. unfold total. cbn. apply app_length. Qed.

Lemma update_loop_ok acts T P n : forall rest pre p p', 
  update_loop stdprops (pre ++ rest) rest acts (length pre) (total pre) T P n p = (Ok tt, p') ->
  shaped (total (pre ++ rest)) (length (pre ++ rest)) p ->
  shaped (total (pre ++ rest)) (length (pre ++ rest)) p' /\ p_T p' = p_T p /\ p_P p' = p_P p /\ total pre + total rest <= Nat.max (length n) (total pre) /\
  (forall i b k, i < length pre -> b + k <= total pre -> view p' i b k = view p i b k) /\
  (forall r1 ph r2, rest = r1 ++ ph :: r2 -> PhaseOk stdprops (ph_species ph) (acts (length pre + length r1)) T P
     (segment n (total pre + total r1) (length (ph_species ph)))
     (view p' (length pre + length r1) (total pre + total r1) (length (ph_species ph)))).
Proof.
  induction rest as [|ph rest IH]; intros pre p p' H S; cbn [update_loop] in H.
  - injection H as <-. split; [exact S|]. do 2 (split; [reflexivity|]). split; [unfold total at 2; cbn; lia|].
    split; [reflexivity|]. intros [|] ? ? E; discriminate.
  - destruct (Nat.ltb_spec (length n) (total pre + length (ph_species ph))) as [|Ln]; [discriminate|].
    apply with_value_inv in H as [(b & Eb & H)|[(_ & H & _)|(_ & H & _)]]; try discriminate.
    rewrite numSpeciesUntil_spec in Eb by (rewrite app_length; lia). injection Eb as <-.
    rewrite firstn_app, Nat.sub_diag, firstn_all, app_nil_r in H. 
    destruct (phase_update _ _ _ _ _ _ _) as [r d] eqn:U. destruct r as [[]| |]; try discriminate.
    assert (B : total pre + length (ph_species ph) <= total (pre ++ ph :: rest)) by (rewrite total_app, total_cons; lia).
    apply phase_update_ok in U; [|eapply view_sized; [exact S|exact B]].
    pose proof (PhaseOk_full _ _ _ _ _ _ _ U) as F.
    assert (E : pre ++ ph :: rest = (pre ++ [ph]) ++ rest) by (rewrite <- app_assoc; reflexivity).
    assert (T1 : total (pre ++ [ph]) = total pre + length (ph_species ph)) by (rewrite total_app, total_cons; cbn; lia).
    assert (L1 : length (pre ++ [ph]) = Datatypes.S (length pre)) by (rewrite app_length; cbn; lia).
    assert (Lp : length pre < length (pre ++ ph :: rest)) by (rewrite app_length; cbn; lia).
    pose proof (put_shaped _ _ _ (length pre) _ _ _ S F B) as S'.
    pose proof (IH (pre ++ [ph]) (put_view p (length pre) (total pre) d) p') as K.
    rewrite <- E, T1, L1 in K. specialize (K H S'). destruct K as (K1 & K2 & K3 & K4 & K5 & K6).
    split; [exact K1|]. split; [exact K2|]. split; [exact K3|]. split; [rewrite total_cons; lia|]. split.
    + intros i b k Li Lb. rewrite K5 by lia. apply (view_put_other _ _ _ _ _ _ _ _ _ _ S F B); lia.
    + intros [|a r1] ph' r2 Er; cbn [app] in Er; injection Er as <- Er.
      * cbn [length]. change (total []) with 0. rewrite !Nat.add_0_r.
        rewrite K5 by lia. rewrite (view_put _ _ _ _ _ _ _ S F B Lp). exact U.
      * specialize (K6 r1 ph' r2 Er). rewrite total_cons. cbn [length].
        replace (length pre + Datatypes.S (length r1)) with (Datatypes.S (length pre) + length r1) by lia.
        replace (total pre + (length (ph_species ph) + total r1)) with (total pre + length (ph_species ph) + total r1) by lia. exact K6.
Qed.

Lemma props_update_ok phases acts T P n p p' : props_update stdprops phases acts T P n p = (Ok tt, p') ->
  shaped (total phases) (length phases) p ->
  shaped (total phases) (length phases) p' /\ p_T p' = T /\ p_P p' = P /\ total phases <= length n /\
  forall r1 ph r2, phases = r1 ++ ph :: r2 -> PhaseOk stdprops (ph_species ph) (acts (length r1)) T P
     (segment n (total r1) (length (ph_species ph))) (view p' (length r1) (total r1) (length (ph_species ph))).
Proof.
  unfold props_update. intros H S. change (update_loop stdprops ([] ++ phases) phases acts (length (@nil Phase)) (total []) T P n) with (update_loop stdprops phases phases acts 0 0 T P n) in *.
  pose proof (update_loop_ok acts T P n phases [] _ p' H) as K. cbn [app] in K. 
  destruct K as (K1 & K2 & K3 & K4 & _ & K6); [exact S|]. change (total []) with 0 in *. cbn in K2, K3. repeat (split; [assumption || (change (total []) with 0 in K4; lia)|]).
  intros r1 ph r2 E. exact (K6 r1 ph r2 E).
Qed.
End System.

(* ---- Failed evaluations ---- *)
Lemma std_loop_full stdprops T P sp : forall i d r d' k, std_loop stdprops sp i T P d = (r, d') -> full k d -> full k d'.
Proof.
  induction sp as [|s sp IH]; intros i d r d' k H F; cbn [std_loop] in H.
  - injection H as _ <-. exact F.
  - apply with_value_inv in H as [(a & E & H)|[(_ & _ & ->)|(_ & _ & ->)]]; auto.
    apply IH with (k := k) in H; [exact H|]. unfold full in *. cbn. rewrite !upd_length. exact F.
Qed.
Lemma phase_update_full stdprops sp act T P n d r d' : phase_update stdprops sp act T P n d = (r, d') -> full (length sp) d -> full (length sp) d'.
Proof.
  unfold phase_update. intros H F. destruct (Nat.eqb_spec (length n) (length sp)) as [L|]; cbn [negb] in H; [|injection H as _ <-; exact F].
  destruct (std_loop _ _ _ _ _ _) as [r2 d2] eqn:S. apply std_loop_full with (k := length sp) in S; [|unfold full in *; cbn; tauto].
  destruct r2 as [u0| |]; [|injection H as _ <-; exact S|injection H as _ <-; exact S].
  set (x := if Qeq_bool (sumQ n) 0 then _ else _) in H.
  assert (Lx : length x = length sp) by (unfold x; destruct (Qeq_bool (sumQ n) 0); rewrite map_length; exact L). clearbody x.
  set (d3 := mkPD T P n (sumQ n) x _ _ _ _ _ _ _ _ _ _ _ _ _ _ _) in *.
  assert (F3 : full (length sp) d3) by (unfold full in *; cbn; tauto).
  apply with_value_inv in H as [(m & M & H)|[(_ & _ & ->)|(_ & _ & ->)]]; auto.
  destruct (Qeq_bool m 0); [injection H as _ <-; exact F3|].
  apply with_value_inv in H as [(a & A & H)|[(_ & _ & ->)|(_ & _ & ->)]]; auto.
  destruct ((length (a_ln_g a) =? length sp) && (length (a_ln_a a) =? length sp)) eqn:Ls; cbn [negb] in H; [|injection H as _ <-; exact F3].
  apply andb_true_iff in Ls as [Lg La]. apply Nat.eqb_eq in Lg, La. injection H as _ <-.
  unfold full in *. cbn in *. rewrite zip_length, La. decompose [and] F3. rewrite Lg. repeat (split; [assumption|]). split; [reflexivity|]. split; [reflexivity|]. lia.
Qed.
Lemma view_full N K p i b k : shaped N K p -> b + k <= N -> full k (view p i b k).
Proof. intros [_ S2] L. decompose [and] S2. unfold full. cbn. rewrite !segment_length by lia. auto 12. Qed.

(* When the evaluation is rejected, some phase could not be evaluated: those
   before it have their new values and those after it the old ones. *)
Lemma update_loop_err stdprops acts T P n : forall rest pre p p',
  update_loop stdprops (pre ++ rest) rest acts (length pre) (total pre) T P n p = (Err, p') ->
  shaped (total (pre ++ rest)) (length (pre ++ rest)) p ->
  (forall i b k, i < length pre -> b + k <= total pre -> view p' i b k = view p i b k) /\
  exists r1 ph r2, rest = r1 ++ ph :: r2 /\
    (forall s1 ph' s2, r1 = s1 ++ ph' :: s2 -> PhaseOk stdprops (ph_species ph') (acts (length pre + length s1)) T P
       (segment n (total pre + total s1) (length (ph_species ph')))
       (view p' (length pre + length s1) (total pre + total s1) (length (ph_species ph')))) /\
    (forall i b k, length pre + length r1 < i < length (pre ++ rest) -> total pre + total r1 + length (ph_species ph) <= b -> view p' i b k = view p i b k).
Proof.
  induction rest as [|ph rest IH]; intros pre p p' H S; cbn [update_loop] in H; [discriminate|].
  destruct (Nat.ltb_spec (length n) (total pre + length (ph_species ph))) as [|Ln]; [discriminate|].
  apply with_value_inv in H as [(b & Eb & H)|[(Eb & _)|(_ & H & _)]]; [| |discriminate].
  2:{ rewrite numSpeciesUntil_spec in Eb by (rewrite app_length; lia). discriminate. }
  rewrite numSpeciesUntil_spec in Eb by (rewrite app_length; lia). injection Eb as <-.
  rewrite firstn_app, Nat.sub_diag, firstn_all, app_nil_r in H.
  destruct (phase_update _ _ _ _ _ _ _) as [r d] eqn:U.
  assert (B : total pre + length (ph_species ph) <= total (pre ++ ph :: rest)) by (rewrite total_app, total_cons; lia).
  pose proof (phase_update_full _ _ _ _ _ _ _ _ _ U (view_full _ _ _ _ _ _ S B)) as F.
  assert (E : pre ++ ph :: rest = (pre ++ [ph]) ++ rest) by (rewrite <- app_assoc; reflexivity).
  assert (T1 : total (pre ++ [ph]) = total pre + length (ph_species ph)) by (rewrite total_app, total_cons; cbn; lia).
  assert (L1 : length (pre ++ [ph]) = Datatypes.S (length pre)) by (rewrite app_length; cbn; lia).
  assert (Lp : length pre < length (pre ++ ph :: rest)) by (rewrite app_length; cbn; lia).
  pose proof (put_shaped _ _ _ (length pre) _ _ _ S F B) as S'.
  destruct r as [[]| |]; [| |discriminate].
  - pose proof (IH (pre ++ [ph]) (put_view p (length pre) (total pre) d) p') as K.
    rewrite <- E, T1, L1 in K. specialize (K H S'). destruct K as (K5 & r1 & ph0 & r2 & Er & K6 & K7). split.
    + intros i b k Li Lb. rewrite K5 by lia. apply (view_put_other _ _ _ _ _ _ _ _ _ _ S F B); lia.
    + exists (ph :: r1), ph0, r2. split; [rewrite Er; reflexivity|]. split.
      * intros [|a s1] ph' s2 Es; cbn [app] in Es; injection Es as <- Es.
        -- cbn [length]. change (total []) with 0. rewrite !Nat.add_0_r. rewrite K5 by lia. rewrite (view_put _ _ _ _ _ _ _ S F B Lp).
           apply phase_update_ok in U; [exact U|eapply view_sized; [exact S|exact B]].
        -- specialize (K6 s1 ph' s2 Es). rewrite total_cons. cbn [length].
           replace (length pre + Datatypes.S (length s1)) with (Datatypes.S (length pre) + length s1) by lia.
           replace (total pre + (length (ph_species ph) + total s1)) with (total pre + length (ph_species ph) + total s1) by lia. exact K6.
      * intros i b k Li Lb. rewrite total_cons in Lb. cbn [length] in Li. rewrite K7 by lia. apply (view_put_other _ _ _ _ _ _ _ _ _ _ S F B); lia.
  - injection H as <-. split.
    + intros i b k Li Lb. apply (view_put_other _ _ _ _ _ _ _ _ _ _ S F B); lia.
    + exists [], ph, rest. split; [reflexivity|]. split; [intros [|] ? ? Es; discriminate|].
      intros i b k Li Lb. cbn in Li. change (total []) with 0 in Lb. apply (view_put_other _ _ _ _ _ _ _ _ _ _ S F B); lia.
Qed.
