(* Numbers written to a stream are read back to six digits. *)
From Coq Require Import Qabs Qround Qpower Lqa Lia NArith.
From Verif Require Import Base M_Strings M_Formula M_Chem S_Formula P_Strings P_Formula P_Printing M_System M_Yaml M_DatabaseYaml M_DatabaseOut S_DatabaseOut.
Local Open Scope nat_scope.

(* ---- Powers of ten ---- *)
Notation p10 z := (Qpower (10#1) z).
Lemma p10_plus a b : (p10 (a + b) == p10 a * p10 b)%Q.
Proof. apply Qpower_plus. discriminate. Qed.
Lemma p10_pos a : (0 < p10 a)%Q.
Proof. apply Qpower_0_lt. reflexivity. Qed.
Lemma p10_nz a : ~ (p10 a == 0)%Q.
Proof. pose proof (p10_pos a). lra. Qed.
Lemma p10_Z a : (0 <= a)%Z -> (p10 a == inject_Z (10 ^ a))%Q.
Proof. intros H. change (10#1) with (inject_Z 10). rewrite Zpower_Qpower by exact H. reflexivity. Qed.
Lemma p10_1 a : (0 <= a)%Z -> (1 <= p10 a)%Q.
Proof. intros H. rewrite p10_Z by exact H. change 1%Q with (inject_Z 1). rewrite <- Zle_Qle. pose proof (Z.pow_pos_nonneg 10 a). lia. Qed.
Lemma p10_le a b : (a <= b)%Z -> (p10 a <= p10 b)%Q.
Proof. intros H. replace b with (a + (b - a))%Z by lia. rewrite p10_plus. pose proof (p10_1 (b - a) ltac:(lia)). pose proof (p10_pos a). nra. Qed.
Lemma p10_lt a b : (p10 a < p10 b)%Q -> (a < b)%Z.
Proof. intros H. destruct (Z.lt_ge_cases a b) as [L|L]; [exact L|]. apply p10_le in L. lra. Qed.
Lemma p10_N (k : N) : (p10 (Z.of_N k) == inject_Z (Z.of_N (10 ^ k)))%Q.
Proof. rewrite p10_Z, N2Z.inj_pow by lia. reflexivity. Qed.
Lemma p10_opp a : (p10 a * p10 (- a) == 1)%Q.
Proof. rewrite <- p10_plus, Z.add_opp_diag_r. reflexivity. Qed.

(* ---- Digits ---- *)
Lemma decimals_in_spec f : forall n, (0 < n)%N -> (n < 10 ^ N.of_nat (S f))%N ->
  1 <= decimals_in f n /\ (10 ^ N.of_nat (decimals_in f n - 1) <= n)%N /\ (n < 10 ^ N.of_nat (decimals_in f n))%N.
Proof.
  induction f as [|f IH]; intros n P L; cbn [decimals_in].
  - change (10 ^ N.of_nat (1 - 1))%N with 1%N. split; [lia|]. split; [lia|exact L].
  - destruct (N.ltb_spec n 10) as [S1|S1].
    + change (10 ^ N.of_nat (1 - 1))%N with 1%N. change (10 ^ N.of_nat 1)%N with 10%N. lia.
    + destruct (IH (n / 10)%N) as (A & B & C).
      { apply N.div_str_pos. lia. }
      { apply N.div_lt_upper_bound; [discriminate|]. rewrite <- N.pow_succ_r', <- Nat2N.inj_succ. exact L. }
      split; [lia|]. replace (S (decimals_in f (n / 10)) - 1) with (S (decimals_in f (n / 10) - 1)) by lia.
      rewrite !Nat2N.inj_succ, !N.pow_succ_r'. pose proof (N.div_mod n 10 ltac:(discriminate)). pose proof (N.mod_lt n 10 ltac:(discriminate)). nia.
Qed.
Lemma decimals_spec n : (0 < n)%N -> 1 <= decimals n /\ (10 ^ N.of_nat (decimals n - 1) <= n)%N /\ (n < 10 ^ N.of_nat (decimals n))%N.
Proof.
  intros P. unfold decimals. apply decimals_in_spec; [exact P|]. rewrite Nat2N.inj_succ, N2Nat.id.
  apply N.lt_le_trans with (2 ^ N.succ (N.log2 n))%N; [apply N.log2_spec; lia|]. apply N.pow_le_mono_l. lia.
Qed.
Lemma abs_frac q : (Qabs q == (Z.of_N (Z.abs_N (Qnum q)) # Qden q))%Q.
Proof. destruct q as [a b]. cbn. rewrite N2Z.inj_abs_N. reflexivity. Qed.
Lemma frac_div n d : (Z.of_N n # d == inject_Z (Z.of_N n) / inject_Z (Z.pos d))%Q.
Proof. unfold Qeq, Qdiv, Qmult, Qinv, inject_Z; cbn. lia. Qed.
Lemma decimals_Q n : (0 < n)%N -> (p10 (Z.of_nat (decimals n) - 1) <= inject_Z (Z.of_N n))%Q /\ (inject_Z (Z.of_N n) < p10 (Z.of_nat (decimals n)))%Q.
Proof.
  intros P. destruct (decimals_spec n P) as (A & B & C). split.
  - replace (Z.of_nat (decimals n) - 1)%Z with (Z.of_N (N.of_nat (decimals n - 1))) by lia. rewrite p10_N, <- Zle_Qle. lia.
  - replace (Z.of_nat (decimals n)) with (Z.of_N (N.of_nat (decimals n))) by lia. rewrite p10_N, <- Zlt_Qlt. lia.
Qed.
Lemma exponent_spec q : ~ (q == 0)%Q -> (p10 (exponent q) <= Qabs q)%Q /\ (Qabs q < p10 (exponent q + 1))%Q.
Proof.
  intros NZ. rewrite !abs_frac. unfold exponent. set (n := Z.abs_N (Qnum q)). set (d := Qden q).
  assert (Pn : (0 < n)%N). { unfold n. destruct q as [a b]. unfold Qeq in NZ. cbn in *. lia. }
  destruct (decimals_Q n Pn) as (N1 & N2). destruct (decimals_Q (N.pos d) eq_refl) as (D1 & D2).
  set (a := Z.of_nat (decimals n)) in *. set (b := Z.of_nat (decimals (N.pos d))) in *. cbn zeta.
  change (Z.of_N (N.pos d)) with (Z.pos d) in *.
  assert (Pd : (0 < inject_Z (Z.pos d))%Q) by reflexivity.
  assert (U : (Z.of_N n # d < p10 (a - b + 1))%Q).
  { rewrite frac_div. apply Qlt_shift_div_r; [exact Pd|]. eapply Qlt_le_trans; [exact N2|]. replace a with ((a - b + 1) + (b - 1))%Z at 1 by lia. rewrite p10_plus.
    apply Qmult_le_l; [apply p10_pos|exact D1]. }
  assert (L : (p10 (a - b - 1) <= Z.of_N n # d)%Q).
  { rewrite frac_div. apply Qle_shift_div_l; [exact Pd|]. eapply Qle_trans; [|exact N1]. replace (a - 1)%Z with ((a - b - 1) + b)%Z by lia. rewrite p10_plus.
    apply Qmult_le_l; [apply p10_pos|lra]. }
  destruct (Qle_bool (p10 (a - b)) (Z.of_N n # d)) eqn:E.
  - apply Qle_bool_iff in E. split; assumption.
  - assert (E' : (Z.of_N n # d < p10 (a - b))%Q). { apply Qnot_le_lt. intros K. apply Qle_bool_iff in K. congruence. }
    replace (a - b - 1 + 1)%Z with (a - b)%Z by lia. split; assumption.
Qed.
(* Rounding to the nearest integer. *)
Lemma round_even_spec num den : (0 < den)%N -> let m := round_even num den in
  (2 * num <= 2 * m * den + den)%N /\ (2 * m * den <= 2 * num + den)%N.
Proof.
  intros D. unfold round_even. cbn zeta. assert (D0 : (den <> 0)%N) by lia. pose proof (N.div_mod num den D0) as DM. pose proof (N.mod_lt num den D0) as ML.
  set (q := (num / den)%N) in *. set (r := (num mod den)%N) in *.
  destruct (N.ltb_spec (2 * r) den); [|destruct (N.ltb_spec den (2 * r)); [|destruct (N.even q)]]; split; nia.
Qed.
Lemma nearest_integer (m k : Z) (t : Q) : (Qabs (inject_Z m - t) <= 1#2)%Q -> (Qabs (inject_Z m - t) <= Qabs (inject_Z k - t))%Q.
Proof.
  intros H. destruct (Z.eq_dec m k) as [->|N]; [apply Qle_refl|].
  assert (K : (1 <= Qabs (inject_Z k - inject_Z m))%Q).
  { setoid_replace (inject_Z k - inject_Z m)%Q with (inject_Z (k - m)) by (unfold Z.sub; rewrite inject_Z_plus, inject_Z_opp; reflexivity).
    unfold Qabs, inject_Z. unfold Qle. cbn. lia. }
  assert (T : (Qabs (inject_Z k - inject_Z m) <= Qabs (inject_Z k - t) + Qabs (inject_Z m - t))%Q).
  { rewrite (Qabs_Qminus (inject_Z m) t). setoid_replace (inject_Z k - inject_Z m)%Q with ((inject_Z k - t) + (t - inject_Z m))%Q by ring. apply Qabs_triangle. }
  lra.
Qed.
Lemma six_digits_spec q : ~ (q == 0)%Q -> let (m, x) := six_digits q in
  (100000 <= m < 1000000)%N /\ forall k : Z, (Qabs (inject_Z (Z.of_N m) * p10 (x - 5) - Qabs q) <= Qabs (inject_Z k * p10 (exponent q - 5) - Qabs q))%Q.
Proof.
  intros NZ. destruct (exponent_spec q NZ) as (E1 & E2). unfold six_digits. set (x := exponent q) in *. cbn zeta.
  set (n := Z.abs_N (Qnum q)). set (num := (n * 10 ^ Z.to_N (5 - x))%N). set (den := (N.pos (Qden q) * 10 ^ Z.to_N (x - 5))%N).
  assert (Dp : (0 < den)%N). { unfold den. pose proof (N.pow_nonzero 10 (Z.to_N (x - 5)) ltac:(discriminate)). nia. }
  assert (T : (Qabs q == inject_Z (Z.of_N num) / inject_Z (Z.of_N den) * p10 (x - 5))%Q).
  { rewrite abs_frac. fold n. rewrite frac_div. unfold num, den. rewrite !N2Z.inj_mul, !inject_Z_mult, <- !p10_N.
    change (Z.of_N (N.pos (Qden q))) with (Z.pos (Qden q)). assert (Dz : ~ (inject_Z (Z.pos (Qden q)) == 0)%Q) by discriminate.
    destruct (Z.le_gt_cases x 5) as [L|L].
    - replace (Z.of_N (Z.to_N (5 - x))) with (- (x - 5))%Z by lia. replace (Z.of_N (Z.to_N (x - 5))) with 0%Z by lia. change (p10 0) with 1%Q.
      pose proof (p10_opp (x - 5)) as O. set (u := p10 (x - 5)) in *. set (v := p10 (- (x - 5))) in *.
      transitivity (inject_Z (Z.of_N n) / inject_Z (Z.pos (Qden q)) * (u * v))%Q; [rewrite O; field; exact Dz|field; exact Dz].
    - replace (Z.of_N (Z.to_N (5 - x))) with 0%Z by lia. replace (Z.of_N (Z.to_N (x - 5))) with (x - 5)%Z by lia. change (p10 0) with 1%Q.
      field. split; [apply p10_nz|exact Dz]. }
  set (m := round_even num den). destruct (round_even_spec num den Dp) as (M1 & M2). fold m in M1, M2.
  set (t := (inject_Z (Z.of_N num) / inject_Z (Z.of_N den))%Q) in *.
  assert (Dq : (0 < inject_Z (Z.of_N den))%Q) by (change 0%Q with (inject_Z 0); rewrite <- Zlt_Qlt; lia).
  assert (H : (Qabs (inject_Z (Z.of_N m) - t) <= 1#2)%Q).
  { assert (M1' : (2 * inject_Z (Z.of_N num) <= 2 * inject_Z (Z.of_N m) * inject_Z (Z.of_N den) + inject_Z (Z.of_N den))%Q).
    { change 2%Q with (inject_Z 2). rewrite <- !inject_Z_mult, <- inject_Z_plus, <- Zle_Qle. lia. }
    assert (M2' : (2 * inject_Z (Z.of_N m) * inject_Z (Z.of_N den) <= 2 * inject_Z (Z.of_N num) + inject_Z (Z.of_N den))%Q).
    { change 2%Q with (inject_Z 2). rewrite <- !inject_Z_mult, <- inject_Z_plus, <- Zle_Qle. lia. }
    assert (tD : (t * inject_Z (Z.of_N den) == inject_Z (Z.of_N num))%Q) by (unfold t; field; lra).
    apply Qabs_Qle_condition. set (D := inject_Z (Z.of_N den)) in *. set (Nn := inject_Z (Z.of_N num)) in *. set (Mq := inject_Z (Z.of_N m)) in *. split.
    - apply Qnot_lt_le. intros K. nra.
    - apply Qnot_lt_le. intros K. nra. }
  assert (F5 : (p10 x == 100000 * p10 (x - 5))%Q). { replace x with (5 + (x - 5))%Z at 1 by lia. rewrite p10_plus. reflexivity. }
  assert (F6 : (p10 (x + 1) == 1000000 * p10 (x - 5))%Q). { replace (x + 1)%Z with (6 + (x - 5))%Z at 1 by lia. rewrite p10_plus. reflexivity. }
  pose proof (p10_pos (x - 5)) as U. rewrite T, F5 in E1. rewrite T, F6 in E2. set (u := p10 (x - 5)) in *.
  assert (t1 : (100000 <= t)%Q) by (apply Qnot_lt_le; intros K; nra). assert (t2 : (t < 1000000)%Q) by (apply Qnot_le_lt; intros K; nra).
  apply Qabs_Qle_condition in H as (Ha & Hb).
  assert (R1 : (100000 <= Z.of_N m)%Z).
  { apply Z.lt_succ_r. rewrite Zlt_Qlt. unfold Z.succ. rewrite inject_Z_plus. change (inject_Z 100000) with 100000%Q. change (inject_Z 1) with 1%Q. lra. }
  assert (R2 : (Z.of_N m <= 1000000)%Z).
  { apply Z.lt_succ_r. rewrite Zlt_Qlt. unfold Z.succ. rewrite inject_Z_plus. change (inject_Z 1000000) with 1000000%Q. change (inject_Z 1) with 1%Q. lra. }
  assert (Near : forall k : Z, (Qabs (inject_Z (Z.of_N m) * u - Qabs q) <= Qabs (inject_Z k * u - Qabs q))%Q).
  { intros k. rewrite T. setoid_replace (inject_Z (Z.of_N m) * u - t * u)%Q with ((inject_Z (Z.of_N m) - t) * u)%Q by ring. setoid_replace (inject_Z k * u - t * u)%Q with ((inject_Z k - t) * u)%Q by ring.
    rewrite !Qabs_Qmult. apply Qmult_le_compat_r; [|apply Qabs_nonneg]. apply nearest_integer. apply Qabs_Qle_condition. split; assumption. }
  destruct (N.eqb_spec m 1000000) as [E|E].
  - split; [lia|]. intros k. eapply Qle_trans; [|apply (Near k)]. rewrite E. replace (x + 1 - 5)%Z with (1 + (x - 5))%Z by lia. rewrite p10_plus. fold u.
    setoid_replace (inject_Z (Z.of_N 100000) * (p10 1 * u))%Q with (inject_Z (Z.of_N 1000000) * u)%Q; [apply Qle_refl|].
    change (inject_Z (Z.of_N 100000)) with 100000%Q. change (inject_Z (Z.of_N 1000000)) with 1000000%Q. change (p10 1) with 10%Q. ring.
  - split; [lia|]. exact Near.
Qed.
(* No number of six digits is nearer. *)
Lemma six_nearest q : ~ (q == 0)%Q -> let (m, x) := six_digits q in forall d, six_significant d ->
  (Qabs (inject_Z (Z.of_N m) * p10 (x - 5) - Qabs q) <= Qabs (d - Qabs q))%Q.
Proof.
  intros NZ. pose proof (six_digits_spec q NZ) as S. destruct (six_digits q) as [m x]. destruct S as (_ & Near). destruct (exponent_spec q NZ) as (E1 & E2).
  intros d (k & e & K & D). set (y := exponent q) in *. set (v := (inject_Z (Z.of_N m) * p10 (x - 5))%Q) in *. set (a := Qabs q) in *.
  assert (F5 : (p10 y == inject_Z 100000 * p10 (y - 5))%Q). { replace y with (5 + (y - 5))%Z at 1 by lia. rewrite p10_plus. reflexivity. }
  assert (F6 : (p10 (y + 1) == inject_Z 1000000 * p10 (y - 5))%Q). { replace (y + 1)%Z with (6 + (y - 5))%Z at 1 by lia. rewrite p10_plus. reflexivity. }
  destruct (Qlt_le_dec d (p10 y)) as [L|L].
  - eapply Qle_trans; [apply (Near 100000%Z)|]. rewrite <- F5. rewrite !(Qabs_Qminus _ a). rewrite (Qabs_pos (a - p10 y)) by lra. rewrite (Qabs_pos (a - d)) by lra. lra.
  - destruct (Qlt_le_dec (p10 (y + 1)) d) as [G|G].
    + eapply Qle_trans; [apply (Near 1000000%Z)|]. rewrite <- F6. rewrite (Qabs_pos (p10 (y + 1) - a)) by lra. rewrite (Qabs_pos (d - a)) by lra. lra.
    + assert (Y : (y - 5 <= e)%Z).
      { assert (B : (p10 y < p10 (e + 6))%Q).
        { eapply Qle_lt_trans; [exact L|]. rewrite D. replace (e + 6)%Z with (6 + e)%Z by lia. rewrite p10_plus. change (p10 6) with (inject_Z 1000000). apply Qmult_lt_r; [apply p10_pos|]. rewrite <- Zlt_Qlt. lia. }
        apply p10_lt in B. lia. }
      eapply Qle_trans; [apply (Near (k * 10 ^ (e - (y - 5)))%Z)|]. rewrite D. rewrite inject_Z_mult, <- p10_Z by lia. rewrite <- Qmult_assoc, <- p10_plus. replace (e - (y - 5) + (y - 5))%Z with e by lia. apply Qle_refl.
Qed.

(* ---- The text ---- *)
Lemma strip_spec s : exists k, s = strip s ++ repeat "0"%char k.
Proof.
  induction s as [|c s (k & IH)]; [exists 0; reflexivity|]. cbn [strip]. destruct (strip s) as [|d t] eqn:E.
  - destruct (Ascii.eqb_spec c "0"%char) as [->|N]; [exists (S k)|exists k]; rewrite IH at 1; reflexivity.
  - exists k. rewrite IH at 1. reflexivity.
Qed.
Lemma digits_Z_zeros k : digits_Z (repeat "0"%char k) = 0%Z.
Proof. induction k as [|k IH]; [reflexivity|]. cbn [repeat]. rewrite digits_Z_cons, IH. reflexivity. Qed.
Lemma strip_value a b : (inject_Z (digits_Z (a ++ b)) == inject_Z (digits_Z (a ++ strip b)) * p10 (Z.of_nat (length b) - Z.of_nat (length (strip b))))%Q /\ length (strip b) <= length b.
Proof.
  destruct (strip_spec b) as (k & E). set (s := strip b) in *. rewrite E. rewrite app_length, repeat_length. split; [|lia].
  rewrite app_assoc, digits_Z_app, digits_Z_zeros, repeat_length, Z.add_0_r, inject_Z_mult, <- p10_Z by lia.
  replace (Z.of_nat (length s + k) - Z.of_nat (length s))%Z with (Z.of_nat k) by lia. reflexivity.
Qed.
Lemma strip_digits s : all_digits s -> all_digits (strip s).
Proof. intros H c J. destruct (strip_spec s) as (k & E). apply H. rewrite E. apply in_app_iff. left. exact J. Qed.
Lemma all_digits_app a b : all_digits a -> all_digits b -> all_digits (a ++ b).
Proof. intros A B c J. apply in_app_iff in J as [J|J]; auto. Qed.
Lemma all_digits_cons c s : isdigit c = true -> all_digits s -> all_digits (c :: s).
Proof. intros A B d [<-|J]; auto. Qed.
Lemma all_digits_zeros k : all_digits (repeat "0"%char k).
Proof. intros c J. apply repeat_spec in J as ->. reflexivity. Qed.
Lemma N_digits n : digits_Z (N_to_string n) = Z.of_N n.
Proof. destruct (N_to_string_spec n) as (_ & _ & H). rewrite digits_value_Z in H. rewrite inject_Z_injective in H. exact H. Qed.
Lemma two_digits_spec n : two_digits n <> [] /\ all_digits (two_digits n) /\ digits_Z (two_digits n) = Z.of_N n.
Proof.
  unfold two_digits. destruct (N_to_string_spec n) as (A & B & _). destruct (n <? 10)%N.
  - split; [discriminate|]. split; [apply all_digits_cons; [reflexivity|exact B]|]. rewrite digits_Z_cons, N_digits. change (digit_val "0") with 0%Z. lia.
  - split; [exact A|]. split; [exact B|]. apply N_digits.
Qed.
Definition expo (x : Z) : str := "e"%char :: (if (x <? 0)%Z then "-"%char else "+"%char) :: two_digits (Z.abs_N x).
Lemma strtod_decimal (neg : bool) ip fp ex e : ip <> [] -> all_digits ip -> all_digits fp -> (ex = [] /\ e = 0%Z) \/ ex = expo e ->
  exists q, strtod ((if neg then ["-"%char] else []) ++ ip ++ point fp ++ ex) = Some q /\
    (q == (if neg then -1 else 1) * (inject_Z (digits_Z (ip ++ fp)) * p10 (e - Z.of_nat (length fp))))%Q.
Proof.
  intros Nip Dip Dfp X. destruct ip as [|c ip]; [congruence|]. assert (Hc : isdigit c = true) by (apply Dip; left; reflexivity).
  set (tail := point fp ++ ex).
  assert (T : strtod ((if neg then ["-"%char] else []) ++ (c :: ip) ++ tail) =
    let '(ds, r1) := span isdigit ((c :: ip) ++ tail) in
    let '(fp, r2) := match r1 with "."%char :: r => span isdigit r | _ => ([], r1) end in
    match ds ++ fp with
    | [] => None
    | ds =>
      let e := match r2 with
               | c :: r =>
                 if Ascii.eqb c "e"%char || Ascii.eqb c "E"%char then
                   let '(eneg, r) := match r with "-"%char :: r' => (true, r') | "+"%char :: r' => (false, r') | _ => (false, r) end in
                   let ed := digits_Z (fst (span isdigit r)) in
                   (if eneg : bool then - ed else ed)%Z
                 else 0%Z
               | [] => 0%Z
               end in
      let m := (inject_Z (digits_Z ds) * p10 (e - Z.of_nat (length fp)))%Q in
      Some (if neg then (- m)%Q else m)
    end).
  { unfold strtod. destruct neg.
    - cbn [app trimleft]. change (isspace "-") with false. cbn iota. reflexivity.
    - cbn [app]. rewrite trimleft_digits by exact Hc. rewrite sign_split by exact Hc. reflexivity. }
  rewrite T. clear T.
  assert (Ht : head_sat isdigit tail = false).
  { unfold tail. destruct fp as [|d fp]; [|reflexivity]. cbn [point app]. destruct X as [[-> _]| ->]; reflexivity. }
  rewrite (@span_exact isdigit (c :: ip) tail (forallb_all_digits _ Dip) Ht). cbn iota beta.
  assert (Hx : head_sat isdigit ex = false) by (destruct X as [[-> _]| ->]; reflexivity).
  assert (R : match tail with "."%char :: r => span isdigit r | _ => ([], tail) end = (fp, ex)).
  { unfold tail. destruct fp as [|d fp].
    - cbn [point app]. destruct X as [[-> _]| ->]; reflexivity.
    - cbn [point app]. change (d :: fp ++ ex) with ((d :: fp) ++ ex). apply (@span_exact isdigit (d :: fp) ex (forallb_all_digits _ Dfp) Hx). }
  match goal with |- context [let '(f0, r2) := ?z in _] => replace z with (fp, ex) by (symmetry; exact R) end. cbn iota beta. cbn [app]. eexists. split; [reflexivity|].
  match goal with |- context [p10 (?x - Z.of_nat (length fp))] => assert (Ex : x = e) end.
  { destruct X as [[-> ->]| ->]; [reflexivity|]. unfold expo. destruct (two_digits_spec (Z.abs_N e)) as (A & B & C).
    pose proof (@span_exact isdigit (two_digits (Z.abs_N e)) [] (forallb_all_digits _ B) eq_refl) as S. rewrite app_nil_r in S.
    change (Ascii.eqb "e" "e" || Ascii.eqb "e" "E") with true. cbn iota. destruct (Z.ltb_spec e 0) as [L|L].
    - rewrite S. cbn [fst]. rewrite C, N2Z.inj_abs_N. lia.
    - rewrite S. cbn [fst]. rewrite C, N2Z.inj_abs_N. lia. }
  rewrite Ex. destruct neg; ring.
Qed.
Lemma fixed6 m : (m < 1000000)%N -> length (print_fixed 6 m []) = 6 /\ all_digits (print_fixed 6 m []) /\ digits_Z (print_fixed 6 m []) = Z.of_N m.
Proof.
  intros L. destruct (print_fixed_spec 6 m []) as (d & E & Ld & D & V). rewrite app_nil_r in E. rewrite E. split; [exact Ld|]. split; [exact D|].
  rewrite digits_value_Z in V. rewrite inject_Z_injective in V. rewrite V. change (10 ^ N.of_nat 6)%N with 1000000%N. rewrite N.mod_small by exact L. reflexivity.
Qed.
(* What is read back. *)
Definition read_back (q : Q) : Q := let (m, x) := six_digits q in ((if (Qnum q <? 0)%Z then -1 else 1) * (inject_Z (Z.of_N m) * p10 (x - 5)))%Q.
Lemma firstn_digits k s : all_digits s -> all_digits (firstn k s) /\ all_digits (skipn k s).
Proof. intros D. rewrite <- (firstn_skipn k s) in D. split; intros c J; apply D, in_app_iff; auto. Qed.
Lemma ostream_value q : ~ (q == 0)%Q -> (atof (ostream q) == read_back q)%Q.
Proof.
  intros NZ. unfold ostream, read_back. destruct (Qeq_bool q 0) eqn:Z0; [apply Qeq_bool_iff in Z0; contradiction|].
  pose proof (six_digits_spec q NZ) as S. destruct (six_digits q) as [m x]. destruct S as ((M1 & M2) & _).
  destruct (fixed6 m M2) as (L & D & V). set (ds := print_fixed 6 m []) in *. clearbody ds. set (neg := (Qnum q <? 0)%Z).
  destruct ((x <? -4)%Z || (6 <=? x)%Z) eqn:B.
  - destruct (firstn_digits 1 ds D) as (D1 & D2).
    destruct (strtod_decimal neg (firstn 1 ds) (strip (skipn 1 ds)) (expo x) x) as (r & E & H);
      [destruct ds; discriminate|exact D1|apply strip_digits; exact D2|right; reflexivity|].
    unfold atof. unfold expo in E. rewrite E. rewrite H.
    destruct (strip_value (firstn 1 ds) (skipn 1 ds)) as (W & Wl). rewrite firstn_skipn, V in W. rewrite W. rewrite <- Qmult_assoc, <- p10_plus.
    rewrite skipn_length, L in *. replace (Z.of_nat (6 - 1) - Z.of_nat (length (strip (skipn 1 ds))) + (x - 5))%Z with (x - Z.of_nat (length (strip (skipn 1 ds))))%Z by lia. reflexivity.
  - apply orb_false_iff in B as (B1 & B2). apply Z.ltb_ge in B1. apply Z.leb_gt in B2. destruct (Z.ltb_spec x 0) as [Xn|Xp].
    + set (k := Z.to_nat (- x - 1)).
      assert (Ns : repeat "0"%char k ++ strip ds <> []).
      { intros E. apply app_eq_nil in E as (_ & E). destruct (strip_spec ds) as (j & F). rewrite E in F. cbn in F. rewrite F, digits_Z_zeros in V. lia. }
      destruct (strtod_decimal neg $"0" (repeat "0"%char k ++ strip ds) [] 0) as (r & E & H);
        [discriminate|intros c [<-|[]]; reflexivity|apply all_digits_app; [apply all_digits_zeros|apply strip_digits; exact D]|left; auto|].
      unfold atof.
      assert (Tx : (if neg then ["-"%char] else []) ++ $"0" ++ point (repeat "0"%char k ++ strip ds) ++ [] = (if neg then ["-"%char] else []) ++ "0"%char :: "."%char :: repeat "0"%char k ++ strip ds).
      { rewrite app_nil_r. destruct (repeat "0"%char k ++ strip ds) as [|c t] eqn:Q; [congruence|]. reflexivity. }
      rewrite Tx in E. rewrite E. rewrite H. destruct (strip_value [] ds) as (W & Wl). cbn [app] in W. rewrite V in W. rewrite W, <- Qmult_assoc, <- p10_plus.
      rewrite app_length, repeat_length, L in *. change ($"0" ++ repeat "0"%char k ++ strip ds) with (repeat "0"%char (S k) ++ strip ds).
      rewrite digits_Z_app, digits_Z_zeros. replace (0 * 10 ^ Z.of_nat (length (strip ds)) + digits_Z (strip ds))%Z with (digits_Z (strip ds)) by lia.
      replace (0 - Z.of_nat (k + length (strip ds)))%Z with (Z.of_nat 6 - Z.of_nat (length (strip ds)) + (x - 5))%Z by (unfold k; lia). reflexivity.
    + set (k := Z.to_nat (x + 1)). destruct (firstn_digits k ds D) as (D1 & D2).
      destruct (strtod_decimal neg (firstn k ds) (strip (skipn k ds)) [] 0) as (r & E & H);
        [intros E; assert (C : length (firstn k ds) = 0) by (rewrite E; reflexivity); rewrite firstn_length, L in C; unfold k in C; lia|exact D1|apply strip_digits; exact D2|left; auto|].
      unfold atof. rewrite app_nil_r in E. rewrite E. rewrite H.
      destruct (strip_value (firstn k ds) (skipn k ds)) as (W & Wl). rewrite firstn_skipn, V in W. rewrite W. rewrite <- Qmult_assoc, <- p10_plus.
      rewrite skipn_length, L in *. replace (Z.of_nat (6 - k) - Z.of_nat (length (strip (skipn k ds))) + (x - 5))%Z with (0 - Z.of_nat (length (strip (skipn k ds))))%Z by (unfold k; lia). reflexivity.
Qed.
Lemma sign_abs q : (q == (if (Qnum q <? 0)%Z then -1 else 1) * Qabs q)%Q.
Proof. destruct q as [a b]. cbn [Qnum]. unfold Qeq, Qmult, Qabs. destruct (Z.ltb_spec a 0); cbn; destruct a; cbn; lia. Qed.
Lemma six_significant_opp d : six_significant d -> six_significant (- d).
Proof. intros (m & e & M & D). exists (- m)%Z, e. split; [lia|]. rewrite D, inject_Z_opp. ring. Qed.
(* The number read is the nearest with six digits. *)
Lemma ostream_nearest q : nearest_six (atof (ostream q)) q.
Proof.
  destruct (Qeq_dec q 0) as [Z0|NZ].
  - assert (E : ostream q = $"0") by (unfold ostream; apply Qeq_bool_iff in Z0; rewrite Z0; reflexivity). rewrite E.
    assert (A : (atof $"0" == 0)%Q) by reflexivity. split.
    + exists 0%Z, 0%Z. split; [reflexivity|]. rewrite A. reflexivity.
    + intros d _. rewrite A, Z0. apply Qabs_nonneg.
  - pose proof (ostream_value q NZ) as V. unfold read_back in V. pose proof (six_digits_spec q NZ) as S. pose proof (six_nearest q NZ) as B.
    destruct (six_digits q) as [m x]. destruct S as ((M1 & M2) & _). set (sg := (if (Qnum q <? 0)%Z then -1 else 1)%Q) in *. set (v := (inject_Z (Z.of_N m) * p10 (x - 5))%Q) in *.
    assert (Sg : (sg == 1 \/ sg == -1)%Q) by (unfold sg; destruct (Qnum q <? 0)%Z; [right|left]; reflexivity).
    assert (Q1 : (q == sg * Qabs q)%Q) by apply sign_abs. set (a := Qabs q) in *.
    assert (Hab : forall r s, (r == sg * s)%Q -> (Qabs (r - q) == Qabs (s - a))%Q).
    { intros r s Hr. rewrite Hr, Q1. setoid_replace (sg * s - sg * a)%Q with (sg * (s - a))%Q by ring. rewrite Qabs_Qmult. destruct Sg as [-> | ->]; cbn [Qabs]; (setoid_replace (Qabs 1) with 1%Q by reflexivity || setoid_replace (Qabs (-1)) with 1%Q by reflexivity); ring. }
    split.
    + destruct Sg as [Sg|Sg].
      * exists (Z.of_N m), (x - 5)%Z. split; [lia|]. rewrite V, Sg. unfold v. ring.
      * exists (- Z.of_N m)%Z, (x - 5)%Z. split; [lia|]. rewrite V, Sg, inject_Z_opp. unfold v. ring.
    + intros d Sd. rewrite (Hab _ _ V). rewrite (Hab d (sg * d)%Q) by (destruct Sg as [-> | ->]; ring).
      apply B. destruct Sg as [Sg|Sg].
      * destruct Sd as (k & e & K & D). exists k, e. split; [exact K|]. rewrite Sg, D. ring.
      * apply six_significant_opp in Sd as (k & e & K & D). exists k, e. split; [exact K|]. rewrite Sg, <- D. ring.
Qed.
Lemma nearest_exact r q : nearest_six r q -> six_significant q -> (r == q)%Q.
Proof.
  intros (_ & N) S. specialize (N q S). setoid_replace (q - q)%Q with 0%Q in N by ring. change (Qabs 0) with 0%Q in N.
  apply Qabs_Qle_condition in N. lra.
Qed.
(* No blanks and no colons. *)
Lemma ostream_chars q c : In c (ostream q) -> c <> " "%char /\ c <> ":"%char.
Proof.
  assert (Dg : forall d, isdigit d = true -> d <> " "%char /\ d <> ":"%char) by (intros d H; split; intros ->; discriminate).
  assert (Ad : forall s, all_digits s -> In c s -> c <> " "%char /\ c <> ":"%char) by (intros s A J; apply Dg, A, J).
  assert (Pt : forall s, all_digits s -> In c (point s) -> c <> " "%char /\ c <> ":"%char).
  { intros s A J. destruct s as [|d s]; [destruct J|]. destruct J as [<-|J]; [split; discriminate|apply (Ad _ A J)]. }
  unfold ostream. destruct (Qeq_bool q 0) eqn:Z0; [intros [<-|[]]; split; discriminate|]. apply Qeq_bool_neq in Z0.
  pose proof (six_digits_spec q Z0) as S. destruct (six_digits q) as [m x]. destruct S as ((M1 & M2) & _). destruct (fixed6 m M2) as (L & D & V). set (ds := print_fixed 6 m []) in *. clearbody ds.
  intros J. apply in_app_iff in J as [J|J].
  - destruct (Qnum q <? 0)%Z; [destruct J as [<-|[]]; split; discriminate|destruct J].
  - destruct ((x <? -4)%Z || (6 <=? x)%Z).
    + destruct (firstn_digits 1 ds D) as (D1 & D2). apply in_app_iff in J as [J|J]; [apply (Ad _ D1 J)|]. apply in_app_iff in J as [J|J]; [apply (Pt _ (strip_digits _ D2) J)|].
      destruct J as [<-|[<-|J]]; [split; discriminate|destruct (x <? 0)%Z; split; discriminate|]. apply (Ad (two_digits (Z.abs_N x))); [apply two_digits_spec|exact J].
    + destruct (x <? 0)%Z.
      * destruct J as [<-|[<-|J]]; [split; discriminate|split; discriminate|]. apply in_app_iff in J as [J|J]; [apply (Ad _ (all_digits_zeros _) J)|apply (Ad _ (strip_digits _ D) J)].
      * destruct (firstn_digits (Z.to_nat (x + 1)) ds D) as (D1 & D2). apply in_app_iff in J as [J|J]; [apply (Ad _ D1 J)|apply (Pt _ (strip_digits _ D2) J)].
Qed.
