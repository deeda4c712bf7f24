(* Printing of numbers and of reaction equations. *)
From Coq Require Import Qabs Qround Qpower Lqa Lia NArith.
From Verif Require Import Base M_Strings M_Formula M_Chem S_Formula S_Strings S_Chem P_Strings P_Formula P_Chem.

Lemma digit_char_value d : (d < 10)%N -> N_of_ascii (digit_char d) = (48 + d)%N.
Proof. intros H. unfold digit_char. apply N_ascii_embedding. lia. Qed.
Lemma digit_char_digit d : (d < 10)%N -> isdigit (digit_char d) = true.
Proof.
  intros H. unfold digit_char. assert (C : (d = 0 \/ d = 1 \/ d = 2 \/ d = 3 \/ d = 4 \/ d = 5 \/ d = 6 \/ d = 7 \/ d = 8 \/ d = 9)%N) by lia.
  repeat destruct C as [->|C]; try reflexivity. subst. reflexivity.
Qed.
Lemma power_S k : (Qpower (10#1) (Z.of_nat (S k)) == 10 * Qpower (10#1) (Z.of_nat k))%Q.
Proof. rewrite Nat2Z.inj_succ. unfold Z.succ. rewrite Qpower_plus by discriminate. change (Qpower (10#1) 1) with (10#1)%Q. ring. Qed.
Lemma power_pos k : (0 < Qpower (10#1) (Z.of_nat k))%Q.
Proof. apply Qpower_0_lt. reflexivity. Qed.
Lemma power_N k : (Qpower (10#1) (Z.of_nat k) == inject_Z (Z.of_N (10 ^ N.of_nat k)))%Q.
Proof.
  induction k as [|k IH]; [reflexivity|]. rewrite power_S, IH. rewrite Nat2N.inj_succ, N.pow_succ_r', N2Z.inj_mul, inject_Z_mult. reflexivity.
Qed.
Lemma digits_value_snoc d c : (digits_value (d ++ [c]) == 10 * digits_value d + inject_Z (Z.of_N (N_of_ascii c) - 48))%Q.
Proof.
  induction d as [|a d IH]; cbn [app digits_value].
  - cbn [length]. change (Qpower (10#1) (Z.of_nat 0)) with 1%Q. ring.
  - rewrite IH, app_length, Nat.add_1_r, power_S. ring.
Qed.
Lemma div_mod_value n : (10 * inject_Z (Z.of_N (n / 10)) + inject_Z (Z.of_N (n mod 10)) == inject_Z (Z.of_N n))%Q.
Proof.
  rewrite (N.div_mod n 10) at 3 by discriminate. rewrite N2Z.inj_add, N2Z.inj_mul, inject_Z_plus, inject_Z_mult. reflexivity.
Qed.
Lemma digit_term d : (d < 10)%N -> (inject_Z (Z.of_N (N_of_ascii (digit_char d)) - 48) == inject_Z (Z.of_N d))%Q.
Proof. intros H. rewrite digit_char_value by exact H. rewrite N2Z.inj_add. apply inject_Z_injective. change (Z.of_N 48) with 48%Z. lia. Qed.
Lemma mod_10 n : (n mod 10 < 10)%N. Proof. apply N.mod_lt. discriminate. Qed.
Lemma print_N_spec f : forall n acc, (n < 10 ^ N.of_nat (S f))%N ->
  exists d, print_N (S f) n acc = d ++ acc /\ d <> [] /\ all_digits d /\ (digits_value d == inject_Z (Z.of_N n))%Q.
Proof.
  induction f as [|f IH]; intros n acc Hn; cbn [print_N]; fold print_N; destruct (N.eqb_spec (n / 10) 0) as [E|E].
  1,3: exists [digit_char (n mod 10)]; split; [reflexivity|]; split; [discriminate|]; split;
    [intros c [<-|[]]; apply digit_char_digit, mod_10|cbn [digits_value length]; rewrite digit_term by apply mod_10; change (Qpower (10#1) (Z.of_nat 0)) with 1%Q; rewrite <- (div_mod_value n), E; change (inject_Z (Z.of_N 0)) with 0%Q; ring].
  - exfalso. apply E. apply N.div_small. change (10 ^ N.of_nat 1)%N with 10%N in Hn. exact Hn.
  - destruct (IH (n / 10)%N (digit_char (n mod 10) :: acc)) as (d & E1 & E2 & E3 & E4).
    { apply N.div_lt_upper_bound; [discriminate|]. rewrite <- N.pow_succ_r', <- Nat2N.inj_succ. exact Hn. }
    exists (d ++ [digit_char (n mod 10)]). split; [|split; [|split]].
    + cbn [print_N] in E1. rewrite E1, <- app_assoc. reflexivity.
    + destruct d; discriminate.
    + intros c Hc. apply in_app_iff in Hc as [Hc|[<-|[]]]; [apply E3, Hc|apply digit_char_digit, mod_10].
    + rewrite digits_value_snoc, E4, digit_term by apply mod_10. apply div_mod_value.
Qed.
Lemma N_to_string_spec n : N_to_string n <> [] /\ all_digits (N_to_string n) /\ (digits_value (N_to_string n) == inject_Z (Z.of_N n))%Q.
Proof.
  unfold N_to_string. destruct (print_N_spec (N.to_nat (N.log2 n)) n []) as (d & E & H1 & H2 & H3).
  - rewrite Nat2N.inj_succ, N2Nat.id. destruct (N.eq_dec n 0) as [->|Hn]; [reflexivity|].
    apply N.lt_le_trans with (2 ^ N.succ (N.log2 n))%N; [apply N.log2_spec; lia|]. apply N.pow_le_mono_l. lia.
  - rewrite app_nil_r in E. rewrite E. auto.
Qed.
Lemma print_fixed_spec k : forall n acc, exists d, print_fixed k n acc = d ++ acc /\ length d = k /\ all_digits d /\
  (digits_value d == inject_Z (Z.of_N (n mod 10 ^ N.of_nat k)))%Q.
Proof.
  induction k as [|k IH]; intros n acc; cbn [print_fixed].
  - exists []. rewrite N.mod_1_r. split; [reflexivity|]. split; [reflexivity|]. split; [intros ? []|reflexivity].
  - destruct (IH (n / 10)%N (digit_char (n mod 10) :: acc)) as (d & E1 & E2 & E3 & E4).
    exists (d ++ [digit_char (n mod 10)]). split; [rewrite E1, <- app_assoc; reflexivity|]. split; [rewrite app_length; cbn; lia|]. split.
    + intros c Hc. apply in_app_iff in Hc as [Hc|[<-|[]]]; [apply E3, Hc|apply digit_char_digit, mod_10].
    + rewrite digits_value_snoc, E4, digit_term by apply mod_10. rewrite Nat2N.inj_succ, N.pow_succ_r'.
      rewrite N.mod_mul_r by (try discriminate; apply N.pow_nonzero; discriminate). rewrite N2Z.inj_add, N2Z.inj_mul, inject_Z_plus, inject_Z_mult. change (inject_Z (Z.of_N 10)) with 10%Q. ring.
Qed.
(* The printed number is within half a unit of the sixth decimal. *)
Lemma to_string_spec x : (0 <= x)%Q -> exists n, num_wf n /\ to_string x = print_num n /\ (Qabs (num_value n - x) <= 1 # 2000000)%Q.
Proof.
  intros Hx. unfold to_string. assert (Hn : (0 <= Qnum x)%Z) by (unfold Qle in Hx; cbn in Hx; lia).
  assert (Z.ltb (Qnum x) 0 = false) as -> by (apply Z.ltb_ge; exact Hn). cbn [app].
  set (num := (Z.abs_N (Qnum x) * 1000000)%N). set (den := N.pos (Qden x)). set (r := (2 * (num mod den))%N).
  set (n := if (r <? den)%N then (num / den)%N else if (den <? r)%N then N.succ (num / den) else if N.even (num / den) then (num / den)%N else N.succ (num / den)).
  assert (B : (2 * num <= 2 * n * den + den)%N /\ (2 * n * den <= 2 * num + den)%N).
  { assert (D0 : (den <> 0)%N) by discriminate. pose proof (N.div_mod num den D0) as DM. pose proof (N.mod_lt num den D0) as ML. fold r in n. subst n.
    set (q := (num / den)%N) in *. set (m := (num mod den)%N) in *.
    destruct (N.ltb_spec r den); [|destruct (N.ltb_spec den r); [|destruct (N.even q)]]; unfold r in *; split; nia. }
  destruct (N_to_string_spec (n / 1000000)) as (I1 & I2 & I3). destruct (print_fixed_spec 6 (n mod 1000000)%N []) as (d & E & L & D1 & D2).
  rewrite app_nil_r in E. rewrite E. exists {| ipart := N_to_string (n / 1000000); fpart := Some d |}. split; [|split].
  - split; cbn; assumption.
  - reflexivity.
  - unfold num_value; cbn [ipart fpart]. rewrite I3, D2, L. change (Qpower (10#1) (Z.of_nat 6)) with (1000000#1)%Q.
    change (10 ^ N.of_nat 6)%N with 1000000%N. rewrite N.mod_mod by discriminate.
    assert (V : (inject_Z (Z.of_N (n / 1000000)) + inject_Z (Z.of_N (n mod 1000000)) / (1000000#1) == inject_Z (Z.of_N n) / (1000000#1))%Q).
    { rewrite (N.div_mod n 1000000) at 3 by discriminate. rewrite N2Z.inj_add, N2Z.inj_mul, inject_Z_plus, inject_Z_mult. change (inject_Z (Z.of_N 1000000)) with (1000000#1)%Q. field. }
    rewrite V. clear - B Hn. apply Qabs_Qle_condition. unfold num, den in B. destruct x as [a b]. cbn [Qnum Qden] in *.
    assert (A : Z.of_N (Z.abs_N a) = a) by (rewrite N2Z.inj_abs_N; lia). set (m := n) in *. clearbody m.
    assert (B1 : (2 * (a * 1000000) <= 2 * Z.of_N m * Z.pos b + Z.pos b)%Z) by lia. assert (B2 : (2 * Z.of_N m * Z.pos b <= 2 * (a * 1000000) + Z.pos b)%Z) by lia.
    unfold Qle, Qminus, Qplus, Qopp, Qdiv, Qmult, Qinv, inject_Z; cbn [Qnum Qden]. split; nia.
Qed.

(* ---- Reaction equations ---- *)
Definition name_wf (s : str) : Prop := s <> [] /\ s <> $"+" /\ forall c, In c s -> c <> " "%char /\ c <> "="%char /\ c <> "*"%char.
Definition near (q c : Q) : Prop := (Qabs (q - c) <= 1 # 2000000)%Q.
Lemma coeffstr_term c name : (0 <= c)%Q -> name_wf name -> exists t, term_wf t /\ print_term t = coeffstr c ++ name /\ snd t = name /\ near (onum_value (fst t)) c.
Proof.
  intros Hc Hn. unfold coeffstr. destruct (Qeq_bool c 1) eqn:E.
  - exists (None, name). split; [split; [exact I|exact Hn]|]. split; [reflexivity|]. split; [reflexivity|]. unfold near. apply Qeq_bool_iff in E. cbn [fst onum_value]. setoid_replace (1 - c)%Q with 0%Q by (rewrite E; reflexivity). discriminate.
  - destruct (to_string_spec c Hc) as (n & W & P & V). exists (Some n, name). split; [split; [exact W|exact Hn]|]. split; [|split; [reflexivity|exact V]].
    unfold print_term; cbn [fst snd]. rewrite P, <- app_assoc. reflexivity.
Qed.
Lemma terms_of (l : list (str * Q)) : Forall (fun p => name_wf (fst p) /\ (0 <= snd p)%Q) l ->
  exists ts, Forall term_wf ts /\ map print_term ts = map (fun p => coeffstr (snd p) ++ fst p) l /\ Forall2 (fun t p => snd t = fst p /\ near (onum_value (fst t)) (snd p)) ts l.
Proof.
  induction 1 as [|[name c] l [Hn Hc] Hl (ts & W & P & V)]; [exists []; repeat constructor|].
  destruct (coeffstr_term c name Hc Hn) as (t & Wt & Pt & St & Vt). exists (t :: ts). split; [constructor; assumption|]. split; [cbn; rewrite Pt, P; reflexivity|]. constructor; [split; assumption|exact V].
Qed.
Lemma drop3_plus s : drop3 (s ++ $" + ") = s.
Proof.
  unfold drop3. rewrite app_length. change (length $" + ") with 3%nat. assert (Nat.ltb (length s + 3) 3 = false) as -> by (apply Nat.ltb_ge; lia). replace (length s + 3 - 3)%nat with (length s) by lia. rewrite firstn_app, Nat.sub_diag, firstn_all, firstn_O, app_nil_r. reflexivity.
Qed.
Lemma concat_plus (ws : list str) : ws <> [] -> concat (map (fun w => w ++ $" + ") ws) = intersperse $" + " ws ++ $" + ".
Proof.
  induction ws as [|w ws IH]; [congruence|intros _]. destruct ws as [|v ws]; [cbn [map concat intersperse]; rewrite app_nil_r; reflexivity|].
  change (concat (map (fun w => w ++ $" + ") (w :: v :: ws))) with ((w ++ $" + ") ++ concat (map (fun w => w ++ $" + ") (v :: ws))). rewrite IH by discriminate.
  change (intersperse $" + " (w :: v :: ws)) with (w ++ $" + " ++ intersperse $" + " (v :: ws)). rewrite <- !app_assoc. reflexivity.
Qed.
Lemma concat_space (ws : list str) : ws <> [] -> concat (map (fun w => w ++ $" ") ws) = intersperse $" " ws ++ $" ".
Proof.
  induction ws as [|w ws IH]; [congruence|intros _]. destruct ws as [|v ws]; [cbn [map concat intersperse]; rewrite app_nil_r; reflexivity|].
  change (concat (map (fun w => w ++ $" ") (w :: v :: ws))) with ((w ++ $" ") ++ concat (map (fun w => w ++ $" ") (v :: ws))). rewrite IH by discriminate.
  change (intersperse $" " (w :: v :: ws)) with (w ++ $" " ++ intersperse $" " (v :: ws)). rewrite <- !app_assoc. reflexivity.
Qed.
Lemma concat_filter (A : Type) (f : A -> bool) (g : A -> str) l : concat (map (fun p => if f p then g p else []) l) = concat (map g (filter f l)).
Proof. induction l as [|a l IH]; cbn; [reflexivity|]. destruct (f a); cbn; rewrite IH; reflexivity. Qed.
Lemma tokens_pad delims s ws pre post : Tokens delims s ws -> all_in delims pre -> all_in delims post -> Tokens delims (pre ++ s ++ post) ws.
Proof.
  intros H Hpre Hpost.
  assert (Q : Tokens delims (s ++ post) ws).
  { clear Hpre. induction H as [ds H | ds w rest ws H1 H2 H3 H4 H5 IH].
    - apply Tokens_nil. intros c Hc. apply in_app_iff in Hc as [Hc|Hc]; auto.
    - rewrite <- !app_assoc. apply Tokens_cons; auto.
      intros c rest' E. destruct rest as [|x rest]; cbn in E; [apply Hpost; rewrite E; left; reflexivity|]. injection E as -> <-. eapply H4; reflexivity. }
  clear -Q Hpre. remember (s ++ post) as u eqn:E. clear E. destruct Q as [ds H | ds w rest ws H1 H2 H3 H4 H5].
  - apply Tokens_nil. intros c Hc. apply in_app_iff in Hc as [Hc|Hc]; auto.
  - rewrite app_assoc. apply Tokens_cons; auto. intros c Hc. apply in_app_iff in Hc as [Hc|Hc]; auto.
Qed.
(* A side whose terms are separated by spaces alone. *)
Lemma parseSide_words s ts : Forall term_wf ts -> exists ps, parseSide s ($" " ++ intersperse $" " (map print_term ts) ++ $" ") = Ok ps /\ Forall2 same_pair ps (map (signed s) ts).
Proof.
  intros Hw. unfold parseSide.
  assert (E : split ($" " ++ intersperse $" " (map print_term ts) ++ $" ") $" " = map print_term ts).
  { apply split_correct. apply tokens_pad; try (intros c Hc; exact Hc). apply split_correct. rewrite <- join_correct. apply split_join; [discriminate|intros c Hc; exact Hc|].
    apply Forall_map. eapply Forall_impl; [|exact Hw]. intros t Ht. split; [apply print_term_nonempty; auto|]. intros c Hc [<-|[]]. apply (print_term_nospace t) in Hc; tauto. }
  rewrite E. assert (F : filter (fun w => negb (str_eqb w $"+")) (map print_term ts) = map print_term ts).
  { clear -Hw. induction Hw as [|t ts Ht Hts IH]; [reflexivity|]. cbn [map filter]. destruct (str_eqb_spec (print_term t) $"+") as [K|K]; [apply print_term_nonempty in Ht; tauto|]. cbn [negb]. rewrite IH. reflexivity. }
  rewrite F. clear E F. induction Hw as [|t ts Ht Hts IH]; cbn [map mapM].
  - exists []. auto.
  - destruct (parseTerm_print s t Ht) as (p & E & Hp). destruct IH as (ps & E2 & Hps). rewrite E, E2. cbn [bind]. eauto.
Qed.
Lemma intersperse_noeq ts c : Forall term_wf ts -> In c (intersperse $" " (map print_term ts)) -> c <> "="%char.
Proof.
  intros H. induction H as [|t ts Ht Hts IH]; [intros []|]. destruct ts as [|u ts].
  - cbn. intros Hc. apply (print_term_nospace t) in Hc; tauto.
  - cbn [map intersperse]. intros Hc. apply in_app_iff in Hc as [Hc|Hc]; [apply (print_term_nospace t) in Hc; tauto|].
    apply in_app_iff in Hc as [Hc|Hc]; [cbn in Hc; destruct Hc as [<-|[]]; discriminate|]. apply IH. exact Hc.
Qed.
Definition reactants_of (eq : list (str * Q)) : list (str * Q) := filter (fun p => Qltb (snd p) 0) eq.
Definition products_of (eq : list (str * Q)) : list (str * Q) := filter (fun p => Qltb 0 (snd p)) eq.
Lemma Qltb_true a b : Qltb a b = true -> (a < b)%Q.
Proof. unfold Qltb. intros H. apply Qnot_le_lt. intros L. apply Qle_bool_iff in L. rewrite L in H. discriminate. Qed.
(* The printed equation with its three missing characters can be read. *)
Lemma equation_to_string_read eq : Forall (fun p => name_wf (fst p)) eq -> reactants_of eq <> [] -> products_of eq <> [] ->
  exists u res, length u = 3%nat /\ parseReactionEquation (equation_to_string eq ++ u) = Ok res /\
    Forall2 (fun a b => fst a = fst b /\ near (snd a) (snd b)) res (reactants_of eq ++ products_of eq).
Proof.
  intros Hn Hr Hp.
  destruct (terms_of (map (fun p => (fst p, (- snd p)%Q)) (reactants_of eq))) as (rs & Wr & Pr & Vr).
  { apply Forall_map. apply Forall_forall. intros p Hi. apply filter_In in Hi as [Hi Hq]. split; [apply (proj1 (Forall_forall _ _) Hn p Hi)|]. apply Qltb_true in Hq. cbn. lra. }
  destruct (terms_of (products_of eq)) as (ps & Wp & Pp & Vp).
  { apply Forall_forall. intros p Hi. apply filter_In in Hi as [Hi Hq]. split; [apply (proj1 (Forall_forall _ _) Hn p Hi)|]. apply Qltb_true in Hq. lra. }
  rewrite map_map in Pr. cbn [fst snd] in Pr.
  assert (L : concat (map (fun p : str * Q => coeffstr (- snd p) ++ fst p ++ $" + ") (reactants_of eq)) = print_side rs ++ $" + ").
  { unfold print_side. rewrite <- concat_plus; [|rewrite Pr; destruct (reactants_of eq); [congruence|discriminate]]. rewrite Pr, map_map. f_equal. apply map_ext. intros p. rewrite app_assoc. reflexivity. }
  assert (R : concat (map (fun p : str * Q => coeffstr (snd p) ++ fst p ++ $" ") (products_of eq)) = intersperse $" " (map print_term ps) ++ $" ").
  { rewrite <- concat_space; [|rewrite Pp; destruct (products_of eq); [congruence|discriminate]]. rewrite Pp, map_map. f_equal. apply map_ext. intros p. rewrite app_assoc. reflexivity. }
  set (full := print_side rs ++ $"= " ++ intersperse $" " (map print_term ps) ++ $" ").
  assert (G : equation_to_string eq = drop3 full).
  { unfold equation_to_string. rewrite (concat_filter _ (fun p => Qltb (snd p) 0) (fun p : str * Q => coeffstr (- snd p) ++ fst p ++ $" + ")), (concat_filter _ (fun p => Qltb 0 (snd p)) (fun p : str * Q => coeffstr (snd p) ++ fst p ++ $" ")).
      fold (reactants_of eq). fold (products_of eq). cbn zeta.
    transitivity (drop3 (drop3 (print_side rs ++ $" + ") ++ $"= " ++ (intersperse $" " (map print_term ps) ++ $" "))); [rewrite <- L, <- R; reflexivity|]. rewrite drop3_plus. reflexivity. }
  rewrite G.
  assert (Ln : (3 <= length full)%nat). { unfold full. rewrite !app_length. change (length $"= ") with 2%nat. change (length $" ") with 1%nat. lia. }
  assert (LU : length (skipn (length full - 3) full) = 3%nat) by (rewrite skipn_length; lia).
  exists (skipn (length full - 3) full).
  assert (E : drop3 full ++ skipn (length full - 3) full = full). { unfold drop3. assert (Nat.ltb (length full) 3 = false) as -> by (apply Nat.ltb_ge; exact Ln). apply firstn_skipn. }
  rewrite E. unfold parseReactionEquation, full.
  replace (print_side rs ++ $"= " ++ intersperse $" " (map print_term ps) ++ $" ") with (print_side rs ++ "="%char :: ($" " ++ intersperse $" " (map print_term ps) ++ $" ")) by reflexivity.
  change ($"=") with (["="%char]). rewrite split_two.
  - destruct (parseSide_print (-(1)) [] [] rs Wr ltac:(intros ? []) ltac:(intros ? [])) as (a & Ea & Ha). cbn [app] in Ea. rewrite app_nil_r in Ea.
    destruct (parseSide_words 1 ps Wp) as (b & Eb & Hb). exists (a ++ b). rewrite Ea, Eb. cbn [bind]. split; [exact LU|]. split; [reflexivity|]. apply Forall2_app.
    + clear - Ha Vr. revert rs Ha Vr. generalize (reactants_of eq) as l. intros l. revert a. induction l as [|p l IH]; intros a rs Ha Vr; cbn in Vr; inversion Vr; subst; cbn in Ha; inversion Ha; subst; constructor; [|eapply IH; eassumption].
      match goal with H : _ /\ _, K : same_pair _ _ |- _ => destruct H as [S1 S2]; destruct K as [K1 K2] end. cbn in *. split; [congruence|]. unfold near in *. rewrite K2. clear - S2.
      setoid_replace (-(1) * onum_value (fst x) - snd p)%Q with (- (onum_value (fst x) - - snd p))%Q by ring. rewrite Qabs_opp. exact S2.
    + clear - Hb Vp. revert b Hb. induction Vp as [|t p ts l [S1 S2] Vp IH]; intros b Hb; cbn in Hb; inversion Hb; subst; constructor; [|apply IH; assumption].
      match goal with K : same_pair _ _ |- _ => destruct K as [K1 K2] end. cbn in *. split; [congruence|]. unfold near in *. rewrite K2. setoid_replace (1 * onum_value (fst t) - snd p)%Q with (onum_value (fst t) - snd p)%Q by ring. exact S2.
  - destruct rs as [|t rs]; [destruct (reactants_of eq); [congruence|discriminate]|]. unfold print_side. inversion Wr; subst. pose proof (print_term_nonempty t H1) as [K _]. destruct rs; cbn; destruct (print_term t); try congruence; discriminate.
  - discriminate.
  - intros H. eapply print_side_noeq in H; eauto.
  - intros H. apply in_app_iff in H as [[H|[]]|H]; [discriminate|]. apply in_app_iff in H as [H|[H|[]]]; [|discriminate]. eapply intersperse_noeq in H; eauto.
Qed.
