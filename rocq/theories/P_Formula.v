From Coq Require Import ZifyBool ZifyNat ZifyN Qpower Qfield.
From Verif Require Import Base M_Strings M_Formula S_Formula P_Strings.
Local Open Scope nat_scope.

(* ------------------------------------------------------------ characters *)
Lemma upper_not_lower c : isupper c = true -> islower c = false.
Proof. unfold isupper, islower, in_range. lia. Qed.
Lemma upper_not_digit c : isupper c = true -> isdigit c = false.
Proof. unfold isupper, isdigit, in_range. lia. Qed.
Lemma lower_not_digit c : islower c = true -> isdigit c = false.
Proof. unfold islower, isdigit, in_range. lia. Qed.
Lemma lower_not_upper c : islower c = true -> isupper c = false.
Proof. unfold isupper, islower, in_range. lia. Qed.
Lemma digit_not_upper c : isdigit c = true -> isupper c = false.
Proof. unfold isupper, isdigit, in_range. lia. Qed.
Lemma elem_char_lower c : negb (isupper c || negb (isalpha c)) = islower c.
Proof. unfold isalpha, isupper, islower, in_range. lia. Qed.

Lemma digit_neq c d : isdigit c = true -> isdigit d = false -> c <> d.
Proof. intros H1 H2 ->. congruence. Qed.

(* --------------------------------------------------------------- numbers *)
Lemma digits_Z_acc s : forall a, fold_left (fun acc c => (10 * acc + digit_val c)%Z) s a =
  (a * 10 ^ Z.of_nat (length s) + digits_Z s)%Z.
Proof.
  unfold digits_Z. induction s as [|c s IH]; intros a.
  - cbn. lia.
  - cbn [fold_left length]. rewrite IH, (IH (10 * 0 + digit_val c)%Z).
    rewrite Nat2Z.inj_succ, Z.pow_succ_r by lia. lia.
Qed.

Lemma digits_Z_app a b : digits_Z (a ++ b) = (digits_Z a * 10 ^ Z.of_nat (length b) + digits_Z b)%Z.
Proof. unfold digits_Z at 1. rewrite fold_left_app. apply digits_Z_acc. Qed.

Lemma digits_Z_cons c s : digits_Z (c :: s) = (digit_val c * 10 ^ Z.of_nat (length s) + digits_Z s)%Z.
Proof. change (c :: s) with ([c] ++ s). rewrite digits_Z_app. reflexivity. Qed.

Lemma inject_pow n : (inject_Z (10 ^ Z.of_nat n) == Qpower (10#1) (Z.of_nat n))%Q.
Proof. change (10#1) with (inject_Z 10). rewrite Zpower_Qpower by lia. reflexivity. Qed.

Lemma digits_value_Z s : (digits_value s == inject_Z (digits_Z s))%Q.
Proof.
  induction s as [|c s IH]; [reflexivity|].
  cbn [digits_value]. rewrite digits_Z_cons, inject_Z_plus, inject_Z_mult, inject_pow, IH. reflexivity.
Qed.

Lemma forallb_all_digits s : all_digits s -> forallb isdigit s = true.
Proof. intros H. apply forallb_forall. exact H. Qed.

Lemma trimleft_digits c s : isdigit c = true -> trimleft (c :: s) = c :: s.
Proof.
  intros H. cbn. assert (isspace c = false) as ->; auto.
  unfold isspace, isdigit, in_range in *. lia.
Qed.

Definition strtod_num (ip fp r2 : str) (neg : bool) : Q :=
  let m := (inject_Z (digits_Z (ip ++ fp)) * Qpower (10#1) (0 - Z.of_nat (length fp)))%Q in
  if neg then (- m)%Q else m.

Lemma qpow_neg n : (Qpower (10#1) (0 - Z.of_nat n) == / Qpower (10#1) (Z.of_nat n))%Q.
Proof. rewrite Z.sub_0_l, Qpower_opp. reflexivity. Qed.

Lemma qpow_nz n : ~ (Qpower (10#1) (Z.of_nat n) == 0)%Q.
Proof. rewrite <- inject_pow. unfold Qeq, inject_Z; cbn. pose proof (Z.pow_pos_nonneg 10 (Z.of_nat n)). lia. Qed.

Lemma decimal_value ip fp :
  (inject_Z (digits_Z (ip ++ fp)) * Qpower (10#1) (0 - Z.of_nat (length fp)) ==
   digits_value ip + digits_value fp / Qpower (10#1) (Z.of_nat (length fp)))%Q.
Proof.
  rewrite digits_Z_app, inject_Z_plus, inject_Z_mult, inject_pow, qpow_neg, !digits_value_Z.
  field. apply qpow_nz.
Qed.

Lemma sign_split c (s : str) : isdigit c = true ->
  match c :: s with "-"%char :: s' => (true, s') | "+"%char :: s' => (false, s') | _ => (false, c :: s) end = (false, c :: s).
Proof.
  intros H. destruct c as [[] [] [] [] [] [] [] []]; first [reflexivity | discriminate H].
Qed.

Lemma strtod_digits ds : ds <> [] -> all_digits ds -> exists q, strtod ds = Some q /\ (q == digits_value ds)%Q.
Proof.
  intros Hn Hd. destruct ds as [|c ds]; [congruence|].
  assert (Hc : isdigit c = true) by (apply Hd; left; reflexivity).
  unfold strtod. rewrite trimleft_digits by assumption.
  rewrite sign_split by assumption.
  pose proof (@span_exact isdigit (c :: ds) [] (forallb_all_digits _ Hd) eq_refl) as S. rewrite app_nil_r in S. rewrite S.
  cbn [app]. rewrite app_nil_r. eexists; split; [reflexivity|].
  cbn [length Z.of_nat]. change (Qpower (10#1) (0 - 0)) with 1%Q. rewrite Qmult_1_r, digits_value_Z. reflexivity.
Qed.

Lemma strtod_print_num n : num_wf n ->
  (exists q, strtod (print_num n) = Some q /\ (q == num_value n)%Q) \/
  (strtod (print_num n) = None /\ (num_value n == 0)%Q).
Proof.
  intros [Hi Hf]. destruct n as [ip [fp|]]; cbn [ipart fpart print_num num_value] in *.
  - unfold print_num, num_value; cbn [ipart fpart].
    destruct ip as [|c ip].
    + cbn [app]. unfold strtod. cbn [trimleft isspace in_range code N_of_ascii].
      change (isspace "."%char) with false. cbn iota. cbn [span]. change (isdigit "."%char) with false. cbn iota.
      destruct fp as [|d fp].
      * right. cbn. split; [reflexivity|]. reflexivity.
      * left. pose proof (@span_exact isdigit (d :: fp) [] (forallb_all_digits _ Hf) eq_refl) as S. rewrite app_nil_r in S. rewrite S.
        cbn [app]. eexists; split; [reflexivity|].
        exact (decimal_value [] (d :: fp)).
    + left. assert (Hc : isdigit c = true) by (apply Hi; left; reflexivity).
      unfold strtod. cbn [app]. rewrite trimleft_digits by assumption.
      rewrite sign_split by assumption.
      pose proof (@span_exact isdigit (c :: ip) ("."%char :: fp) (forallb_all_digits _ Hi) eq_refl) as S.
      cbn [app] in S. rewrite S.
      pose proof (@span_exact isdigit fp [] (forallb_all_digits _ Hf) eq_refl) as S2. rewrite app_nil_r in S2. rewrite S2.
      cbn [app]. eexists; split; [reflexivity|]. exact (decimal_value (c :: ip) fp).
  - left. unfold print_num, num_value; cbn [ipart fpart]. rewrite app_nil_r.
    destruct (strtod_digits _ Hf Hi) as (q & E & H). exists q. split; auto. rewrite H. ring.
Qed.

Lemma atof_print_num n : num_wf n -> (atof (print_num n) == num_value n)%Q.
Proof.
  intros H. unfold atof. destruct (strtod_print_num _ H) as [(q & -> & E)|[-> E]]; auto. symmetry; auto.
Qed.

Lemma isnumchar_false c : isdigit c = false -> c <> "."%char -> isnumchar c = false.
Proof. intros H1 H2. unfold isnumchar, dot. rewrite H1. cbn. apply Ascii.eqb_neq. assumption. Qed.

Lemma not_num_start_head s : not_num_start s -> head_sat isnumchar s = false.
Proof. destruct s as [|c s]; cbn; auto. intros [H1 H2]. apply isnumchar_false; assumption. Qed.

Lemma print_num_numchars n : num_wf n -> forallb isnumchar (print_num n) = true.
Proof.
  intros [Hi Hf]. unfold print_num. rewrite forallb_app. apply andb_true_iff. split.
  - apply forallb_forall. intros c Hc. unfold isnumchar. rewrite (Hi c Hc). reflexivity.
  - destruct (fpart n) as [f|]; auto. cbn. apply forallb_forall. intros c Hc. unfold isnumchar. rewrite (Hf c Hc). reflexivity.
Qed.

Lemma print_num_nonempty n : num_wf n -> print_num n <> [].
Proof.
  intros [Hi Hf]. unfold print_num. destruct (fpart n) as [f|]; [|rewrite app_nil_r; assumption].
  destruct (ipart n); discriminate.
Qed.

Lemma parseNumAtoms_print n rest : onum_wf n -> not_num_start rest ->
  exists q, parseNumAtoms (print_onum n ++ rest) = (q, rest) /\ (q == onum_value n)%Q.
Proof.
  intros Hn Hr. destruct n as [n|]; cbn [print_onum onum_value onum_wf] in *.
  - exists (atof (print_num n)). split; [|apply atof_print_num; assumption].
    pose proof (print_num_numchars _ Hn) as Hc. pose proof (print_num_nonempty _ Hn) as Hne.
    pose proof (@span_exact isnumchar (print_num n) rest Hc (not_num_start_head _ Hr)) as S.
    destruct (print_num n) as [|c t] eqn:E; [congruence|].
    cbn [app] in *. unfold parseNumAtoms. cbn [forallb] in Hc. apply andb_true_iff in Hc as [Hc _].
    rewrite Hc. cbn [negb]. rewrite S. reflexivity.
  - cbn [app]. exists 1%Q. split; [|reflexivity].
    apply not_num_start_head in Hr. destruct rest as [|c rest]; [reflexivity|].
    cbn in *. rewrite Hr. reflexivity.
Qed.

Lemma parseNumAtoms_length s : length (snd (parseNumAtoms s)) <= length s.
Proof.
  destruct s as [|c s]; cbn [parseNumAtoms]; auto. destruct (isnumchar c) eqn:E; cbn [negb]; auto.
  pose proof (span_length isnumchar (c :: s)). destruct (span isnumchar (c :: s)); cbn in *. assumption.
Qed.

Lemma parseElementAtom_print sym rest : symbol_wf sym -> not_lower_start rest ->
  parseElementAtom (sym ++ rest) = (sym, rest).
Proof.
  intros (c & low & -> & Hc & Hl) Hr. cbn [app parseElementAtom].
  assert (S : span (fun c => negb (isupper c || negb (isalpha c))) (low ++ rest) = (low, rest)).
  { apply span_exact.
    - apply forallb_forall. intros d Hd. rewrite elem_char_lower. auto.
    - destruct rest as [|d rest]; auto. cbn in *. rewrite elem_char_lower. assumption. }
  rewrite S. rewrite (upper_not_lower _ Hc). reflexivity.
Qed.

Lemma print_onum_start n rest : onum_wf n -> (n = None -> not_lower_start rest) -> not_lower_start (print_onum n ++ rest).
Proof.
  intros Hn H. destruct n as [n|]; cbn in *; auto.
  pose proof (print_num_numchars _ Hn) as Hc. destruct (print_num n) as [|c t] eqn:E.
  - exfalso. eapply print_num_nonempty; eauto.
  - cbn in *. apply andb_true_iff in Hc as [Hc _]. unfold isnumchar in Hc.
    apply orb_true_iff in Hc as [Hc|Hc].
    + unfold islower, isdigit, in_range in *. lia.
    + apply Ascii.eqb_eq in Hc. subst c. reflexivity.
Qed.

(* ------------------------------------------------- bracket matching *)
(* A text with balanced parentheses never closes below its starting depth. *)
Inductive balanced : str -> Prop :=
| bal_nil : balanced []
| bal_char c s : c <> "("%char -> c <> ")"%char -> balanced s -> balanced (c :: s)
| bal_group a s : balanced a -> balanced s -> balanced ("("%char :: a ++ ")"%char :: s).

Lemma match_bracket_balanced a : balanced a -> forall n rest,
  match_bracket (Z.of_nat n) (a ++ rest) =
  (a ++ fst (match_bracket (Z.of_nat n) rest), snd (match_bracket (Z.of_nat n) rest)).
Proof.
  induction 1 as [| c s H1 H2 H IH | a s Ha IHa Hs IHs]; intros n rest.
  - cbn. destruct (match_bracket _ rest); reflexivity.
  - cbn [app match_bracket]. unfold lpar, rpar.
    destruct (Ascii.eqb_spec c "("%char); [congruence|]. destruct (Ascii.eqb_spec c ")"%char); [congruence|].
    cbn [andb]. rewrite IH. reflexivity.
  - cbn [app match_bracket]. unfold lpar, rpar. cbn [Ascii.eqb Bool.eqb andb].
    rewrite <- app_assoc. cbn [app]. replace (Z.of_nat n + 1)%Z with (Z.of_nat (S n)) by lia.
    rewrite IHa. cbn [match_bracket]. unfold lpar, rpar. cbn [Ascii.eqb Bool.eqb andb].
    destruct (Z.eqb_spec (Z.of_nat (S n) - 1) (-1)); [lia|].
    replace (Z.of_nat (S n) - 1)%Z with (Z.of_nat n) by lia. rewrite IHs.
    cbn [fst snd]. rewrite <- app_assoc. reflexivity.
Qed.

Lemma match_bracket_close a rest : balanced a ->
  match_bracket 0 (a ++ ")"%char :: rest) = (a, ")"%char :: rest).
Proof.
  intros H. change 0%Z with (Z.of_nat 0). rewrite match_bracket_balanced by assumption.
  cbn [match_bracket]. unfold lpar, rpar. cbn. rewrite app_nil_r. reflexivity.
Qed.

Lemma numchars_balanced s : forallb isnumchar s = true -> forall t, balanced t -> balanced (s ++ t).
Proof.
  induction s as [|c s IH]; cbn; auto. intros H t Ht. apply andb_true_iff in H as [H1 H2].
  apply bal_char; auto.
  - intros ->. discriminate. - intros ->. discriminate.
Qed.

Lemma onum_balanced n : onum_wf n -> forall t, balanced t -> balanced (print_onum n ++ t).
Proof. destruct n as [n|]; cbn; auto. intros H. apply numchars_balanced. apply print_num_numchars; assumption. Qed.

Lemma print_balanced f : formula_wf f -> balanced (print f).
Proof.
  induction f as [| sym n rest IH | body IHb n rest IH | c rest IH | n rest IH]; cbn [formula_wf print].
  - constructor.
  - intros ((c & low & -> & Hc & Hl) & Hn & _ & _ & Hr). cbn [app].
    apply bal_char. { intros ->; discriminate. } { intros ->; discriminate. }
    assert (Hb : balanced (print_onum n ++ print rest)) by (apply onum_balanced; auto).
    revert Hl. induction low as [|d low IHl]; cbn [app]; auto. intros Hl.
    apply bal_char.
    + intros ->. specialize (Hl _ (or_introl eq_refl)). discriminate.
    + intros ->. specialize (Hl _ (or_introl eq_refl)). discriminate.
    + apply IHl. intros; apply Hl; right; assumption.
  - intros (Hn & _ & Hb & Hr). apply bal_group; auto. apply onum_balanced; auto.
  - intros (H1 & H2 & H3 & H4 & Hr). apply bal_char; auto.
  - intros (Hn & _ & Hr). apply bal_char; try discriminate. apply onum_balanced; auto.
Qed.

(* --------------------------------------------- accumulating coefficients *)
Definition coef (e : str) (l : list (str * Q)) : Q :=
  fold_right (fun p acc => (if str_eqb (fst p) e then snd p else 0) + acc)%Q 0%Q l.

Lemma add_coeff_coef l e q e' : (coef e' (add_coeff l e q) == coef e' l + (if str_eqb e e' then q else 0))%Q.
Proof.
  induction l as [|[x p] l IH]; cbn.
  - ring.
  - destruct (str_eqb_spec x e) as [->|Hx]; cbn [coef fold_right fst snd].
    + destruct (str_eqb e e'); ring.
    + fold (coef e' (add_coeff l e q)). fold (coef e' l). rewrite IH. ring.
Qed.

Lemma add_coeff_keys l e q : map fst (add_coeff l e q) = if in_dec str_eq_dec e (map fst l) then map fst l else map fst l ++ [e].
Proof.
  induction l as [|[x p] l IH].
  - reflexivity.
  - cbn [add_coeff]. destruct (str_eqb_spec x e) as [->|Hx].
    + cbn [map fst]. destruct (in_dec str_eq_dec e (e :: map fst l)) as [|n]; auto. exfalso; apply n; left; reflexivity.
    + cbn [map fst]. rewrite IH. destruct (in_dec str_eq_dec e (map fst l)) as [j|j]; destruct (in_dec str_eq_dec e (x :: map fst l)) as [i|n']; cbn; auto.
      * exfalso. apply n'. right; assumption.
      * destruct i as [i|i]; congruence || tauto.
Qed.

Definition add_keys (acc l : list str) : list str :=
  fold_left (fun acc x => if in_dec str_eq_dec x acc then acc else acc ++ [x]) l acc.

Lemma add_keys_app acc a b : add_keys acc (a ++ b) = add_keys (add_keys acc a) b.
Proof. apply fold_left_app. Qed.

(* ------------------------------------------------------- main induction *)
Lemma parseFormulaAux_print f : forall fuel result scalar, length (print f) < fuel -> formula_wf f ->
  exists res, parseFormulaAux fuel (print f) result scalar = Ok res /\
    map fst res = add_keys (map fst result) (appearances f) /\
    forall e, (coef e res == coef e result + scalar * atoms e f)%Q.
Proof.
  induction f as [| sym n rest IH | body IHb n rest IH | c rest IH | n rest IH];
    intros fuel result scalar Hf; cbn [formula_wf].
  - intros _. destruct fuel; [cbn in Hf; lia|]. exists result. cbn. repeat split; auto. intros e; ring.
  - intros (Hs & Hn & Hns & Hnl & Hr).
    destruct fuel as [|fuel]; [lia|].
    pose proof (parseElementAtom_print _ _ Hs (print_onum_start _ (print rest) Hn Hnl)) as PE.
    destruct (parseNumAtoms_print n _ Hn Hns) as (q & PN & Hq).
    cbn [print] in *. destruct Hs as (c & low & -> & Hc & Hl). cbn [app] in *.
    cbn [parseFormulaAux].
    assert (Ascii.eqb c lpar = false) as ->. { apply Ascii.eqb_neq. intros ->; discriminate. }
    assert (Ascii.eqb c dot = false) as ->. { apply Ascii.eqb_neq. intros ->; discriminate. }
    rewrite Hc. cbn [negb andb]. rewrite PE, PN.
    destruct (IH fuel (add_coeff result (c :: low) (scalar * q)%Q) scalar) as (res & E & Hk & Hcf); auto.
    { cbn [length] in Hf. rewrite !app_length in Hf. lia. }
    exists res. split; [exact E|]. split.
    + rewrite Hk, add_coeff_keys. cbn [appearances]. reflexivity.
    + intros e. rewrite Hcf, add_coeff_coef. cbn [atoms].
      destruct (str_eqb_spec (c :: low) e) as [E'|E']; destruct (str_eq_dec (c :: low) e); try congruence; rewrite ?Hq; ring.
  - intros (Hn & Hns & Hb & Hr).
    destruct fuel as [|fuel]; [lia|]. cbn [print] in *. cbn [parseFormulaAux].
    unfold lpar at 1 2. cbn [Ascii.eqb Bool.eqb negb andb].
    rewrite match_bracket_close by (apply print_balanced; assumption).
    destruct (parseNumAtoms_print n _ Hn Hns) as (q & PN & Hq). rewrite PN.
    cbn [length] in Hf. rewrite !app_length in Hf. cbn [length] in Hf. rewrite app_length in Hf.
    destruct (IHb fuel result (scalar * q)%Q) as (res1 & E1 & Hk1 & Hc1); auto; [lia|].
    rewrite E1. cbn [bind].
    destruct (IH fuel res1 scalar) as (res2 & E2 & Hk2 & Hc2); auto; [lia|].
    exists res2. split; [exact E2|]. split.
    + rewrite Hk2, Hk1. cbn [appearances]. rewrite add_keys_app. reflexivity.
    + intros e. rewrite Hc2, Hc1. cbn [atoms]. rewrite Hq. ring.
  - intros (H1 & H2 & H3 & H4 & Hr). destruct fuel as [|fuel]; [lia|]. cbn [print] in *. cbn [parseFormulaAux].
    assert (Ascii.eqb c lpar = false) as -> by (apply Ascii.eqb_neq; assumption).
    assert (Ascii.eqb c dot = false) as -> by (apply Ascii.eqb_neq; assumption).
    rewrite H4. cbn [negb andb]. apply IH; auto. cbn [length] in Hf. lia.
  - intros (Hn & Hns & Hr). destruct fuel as [|fuel]; [lia|]. cbn [print] in *. cbn [parseFormulaAux].
    unfold lpar, dot. cbn [Ascii.eqb Bool.eqb negb andb].
    destruct (parseNumAtoms_print n _ Hn Hns) as (q & PN & Hq). rewrite PN.
    cbn [length] in Hf. rewrite app_length in Hf.
    destruct (IH fuel result (scalar * q)%Q) as (res & E & Hk & Hc); auto; [lia|].
    exists res. split; [exact E|]. split; [exact Hk|]. intros e. rewrite Hc. cbn [atoms]. rewrite Hq. ring.
Qed.

Lemma add_keys_NoDup l : forall acc, NoDup acc -> NoDup (add_keys acc l).
Proof.
  induction l as [|x l IH]; cbn; intros acc H; auto. apply IH.
  destruct (in_dec str_eq_dec x acc); auto.
  rewrite <- (rev_involutive (acc ++ [x])). apply NoDup_rev. rewrite rev_app_distr. cbn. constructor.
  - rewrite <- in_rev. assumption. - apply NoDup_rev; assumption.
Qed.

Lemma coef_notin e l : ~ In e (map fst l) -> (coef e l == 0)%Q.
Proof.
  induction l as [|[x p] l IH]; cbn [coef fold_right map fst snd]; intros H; [reflexivity|].
  fold (coef e l). cbn in H. destruct (str_eqb_spec x e); [tauto|]. rewrite IH by tauto. ring.
Qed.

Lemma coef_in e q l : NoDup (map fst l) -> In (e, q) l -> (coef e l == q)%Q.
Proof.
  induction l as [|[x p] l IH]; cbn [map fst]; intros Hn Hi; [destruct Hi|].
  inversion Hn as [|? ? Hx Hl]; subst. cbn [coef fold_right fst snd]. fold (coef e l).
  destruct Hi as [[= -> ->]|Hi].
  - rewrite str_eqb_refl, coef_notin by assumption. ring.
  - destruct (str_eqb_spec x e) as [->|].
    + exfalso. apply Hx. apply in_map_iff. exists (e, q). auto.
    + rewrite (IH Hl Hi). ring.
Qed.

Lemma parseChemicalFormula_print f : formula_wf f ->
  exists res, parseChemicalFormula (print f) = Ok res /\
    map fst res = first_appearances (appearances f) /\
    NoDup (map fst res) /\
    (forall e q, In (e, q) res -> (q == atoms e f)%Q).
Proof.
  intros Hw. destruct (@parseFormulaAux_print f (S (length (print f))) [] 1%Q) as (res & E & Hk & Hc); auto.
  exists res. assert (NoDup (map fst res)) as Hn. { rewrite Hk. apply add_keys_NoDup. constructor. }
  repeat split; auto. intros e q Hi.
  rewrite <- (coef_in e q res Hn Hi), Hc. cbn [coef fold_right]. ring.
Qed.

(* ----------------------------------------------------------- safety (C02) *)
Lemma open_depth_app a b : forall d, open_depth d (a ++ b) = open_depth (open_depth d a) b.
Proof. induction a as [|c a IH]; intros d; cbn; auto. Qed.

Lemma open_depth_plain a : (forall c, In c a -> c <> "("%char /\ c <> ")"%char) -> forall d, open_depth d a = d.
Proof.
  induction a as [|c a IH]; cbn; auto. intros H d.
  destruct (H c (or_introl eq_refl)) as [H1 H2].
  destruct (Ascii.eqb_spec c "("%char); [congruence|]. destruct (Ascii.eqb_spec c ")"%char); [congruence|].
  apply IH. intros x Hx. apply H; auto.
Qed.

Lemma match_bracket_depth s : forall n a b, match_bracket (Z.of_nat n) s = (a, b) ->
  s = a ++ b /\
  (b = [] -> open_depth (S n) s <> 0) /\
  (forall x after, b = x :: after -> x = ")"%char /\ open_depth n a = 0 /\ open_depth (S n) s = open_depth 0 after).
Proof.
  induction s as [|c s IH]; intros n a b.
  - intros [= <- <-]. split; [reflexivity|]. split; [cbn; lia | discriminate].
  - cbn [match_bracket open_depth]. unfold lpar, rpar.
    destruct (Ascii.eqb_spec c "("%char) as [->|H1].
    + cbn [Ascii.eqb Bool.eqb andb]. replace (Z.of_nat n + 1)%Z with (Z.of_nat (S n)) by lia.
      destruct (match_bracket (Z.of_nat (S n)) s) as [a' b'] eqn:E. intros [= <- <-].
      destruct (IH _ _ _ E) as (-> & P & R). split; [reflexivity|]. split; [exact P|].
      intros x after Hb. destruct (R x after Hb) as (R1 & R2 & R3). auto.
    + destruct (Ascii.eqb_spec c ")"%char) as [->|H2].
      * cbn [andb]. destruct (Z.eqb_spec (Z.of_nat n - 1) (-1)) as [En|En].
        -- intros [= <- <-]. assert (n = 0) by lia. subst n. split; [reflexivity|]. split; [discriminate|].
           intros x after [= <- <-]. auto.
        -- destruct n as [|n]; [lia|]. replace (Z.of_nat (S n) - 1)%Z with (Z.of_nat n) by lia.
           destruct (match_bracket (Z.of_nat n) s) as [a' b'] eqn:E. intros [= <- <-].
           destruct (IH _ _ _ E) as (-> & P & R). cbn [pred]. split; [reflexivity|]. split; [exact P|].
           intros x after Hb. destruct (R x after Hb) as (R1 & R2 & R3). auto.
      * cbn [andb]. destruct (match_bracket (Z.of_nat n) s) as [a' b'] eqn:E. intros [= <- <-].
        destruct (IH _ _ _ E) as (-> & P & R). split; [reflexivity|]. split; [exact P|].
        intros x after Hb. destruct (R x after Hb) as (R1 & R2 & R3). split; [exact R1|]. split; [|exact R3].
        cbn. destruct (Ascii.eqb_spec c "("%char); [congruence|]. destruct (Ascii.eqb_spec c ")"%char); [congruence|].
        exact R2.
Qed.

Lemma parseNumAtoms_depth s d : open_depth d (snd (parseNumAtoms s)) = open_depth d s.
Proof.
  destruct s as [|c s]; cbn [parseNumAtoms]; auto. destruct (isnumchar c) eqn:E; cbn [negb]; auto.
  pose proof (span_app isnumchar (c :: s)) as H1. pose proof (span_all isnumchar (c :: s)) as H2.
  destruct (span isnumchar (c :: s)) as [a b]; cbn [fst snd] in *.
  rewrite <- H1, open_depth_app, (open_depth_plain a); auto.
  intros x Hx. rewrite forallb_forall in H2. specialize (H2 x Hx).
  split; intros ->; discriminate.
Qed.

Lemma parseElementAtom_depth c s : isupper c = true ->
  length (snd (parseElementAtom (c :: s))) <= length s /\
  forall d, open_depth d (snd (parseElementAtom (c :: s))) = open_depth d s.
Proof.
  intros Hc. cbn [parseElementAtom]. rewrite (upper_not_lower _ Hc).
  set (p := fun c0 => negb (isupper c0 || negb (isalpha c0))).
  pose proof (span_app p s) as H1. pose proof (span_all p s) as H2. pose proof (span_length p s) as H3.
  destruct (span p s) as [a b]; cbn [fst snd] in *. split; auto.
  intros d. rewrite <- H1, open_depth_app, (open_depth_plain a); auto.
  intros x Hx. rewrite forallb_forall in H2. specialize (H2 x Hx). unfold p in H2. rewrite elem_char_lower in H2.
  split; intros ->; discriminate.
Qed.

Lemma parseFormulaAux_safe : forall fuel s result scalar, length s < fuel ->
  (open_depth 0 s = 0 -> exists res, parseFormulaAux fuel s result scalar = Ok res) /\
  (open_depth 0 s <> 0 -> parseFormulaAux fuel s result scalar = UB).
Proof.
  induction fuel as [|fuel IH]; intros s result scalar Hf; [lia|].
  destruct s as [|c s]; cbn [parseFormulaAux].
  - split; intros H; [eauto | cbn in H; lia].
  - cbn [length] in Hf. destruct (Ascii.eqb_spec c lpar) as [->|Hl].
    + cbn [negb andb]. destruct (match_bracket 0 s) as [inside b] eqn:E.
      pose proof (@match_bracket_depth s 0 inside b E) as (Hs & P & R).
      change (open_depth 0 (lpar :: s)) with (open_depth 1 s).
      destruct b as [|x after].
      * split; [intros H; exfalso; apply P; auto | reflexivity].
      * destruct (R x after eq_refl) as (-> & R1 & R2). rewrite R2.
        assert (length s = length inside + S (length after)) as Ls by (rewrite Hs, app_length; reflexivity).
        pose proof (parseNumAtoms_length after) as L. pose proof (parseNumAtoms_depth after 0) as D.
        destruct (parseNumAtoms after) as [q rest]; cbn [snd] in *.
        destruct (IH inside result (scalar * q)%Q) as [A _]; [lia|]. destruct (A R1) as [res1 ->]. cbn [bind].
        destruct (IH rest res1 scalar) as [B C]; [lia|]. rewrite D in *. split; assumption.
    + destruct (Ascii.eqb_spec c dot) as [->|Hd].
      * cbn [negb andb]. pose proof (parseNumAtoms_length s) as L. pose proof (parseNumAtoms_depth s 0) as D.
        destruct (parseNumAtoms s) as [q rest]; cbn [snd] in *.
        change (open_depth 0 (dot :: s)) with (open_depth 0 s). rewrite <- D. apply IH. lia.
      * unfold lpar in Hl. destruct (isupper c) eqn:U; cbn [negb andb].
        -- destruct (parseElementAtom_depth c s U) as [L1 D1].
           assert (open_depth 0 (c :: s) = open_depth 0 s) as ->.
           { cbn. destruct (Ascii.eqb_spec c "("%char); [congruence|]. destruct (Ascii.eqb_spec c ")"%char) as [->|]; [discriminate|]. reflexivity. }
           destruct (parseElementAtom (c :: s)) as [el rest1]; cbn [snd] in *.
           pose proof (parseNumAtoms_length rest1) as L. pose proof (parseNumAtoms_depth rest1 0) as D.
           destruct (parseNumAtoms rest1) as [q rest2]; cbn [snd] in *.
           rewrite <- D1, <- D. apply IH. lia.
        -- assert (open_depth 0 (c :: s) = open_depth 0 s) as ->.
           { cbn. destruct (Ascii.eqb_spec c "("%char); [congruence|]. destruct (Ascii.eqb_spec c ")"%char); reflexivity. }
           apply IH. lia.
Qed.

Lemma parseChemicalFormula_safe s :
  (open_depth 0 s = 0 -> exists res, parseChemicalFormula s = Ok res) /\
  (open_depth 0 s <> 0 -> parseChemicalFormula s = UB).
Proof. apply parseFormulaAux_safe. lia. Qed.

(* ----------------------------------------------------------------- charge *)
Lemma last_opt_snoc {A} (l : list A) x : last_opt (l ++ [x]) = Some x.
Proof. unfold last_opt. rewrite rev_app_distr. reflexivity. Qed.

Lemma last_opt_some {A} (l : list A) x : last_opt l = Some x -> exists l', l = l' ++ [x].
Proof.
  destruct l as [|y l _] using rev_ind; [discriminate|].
  rewrite last_opt_snoc. intros [= ->]. eauto.
Qed.

Lemma last_opt_app {A} (a b : list A) : b <> [] -> last_opt (a ++ b) = last_opt b.
Proof.
  intros H. destruct b as [|x b _] using rev_ind; [congruence|].
  rewrite app_assoc, !last_opt_snoc. reflexivity.
Qed.

Lemma last_opt_none {A} (l : list A) : last_opt l = None -> l = [].
Proof. destruct l as [|y l _] using rev_ind; auto. rewrite last_opt_snoc. discriminate. Qed.

Lemma rfind_none c s : ~ In c s -> rfind c s = None.
Proof.
  induction s as [|x s IH]; cbn; auto. intros H. rewrite IH by tauto.
  destruct (Ascii.eqb_spec x c); [subst; tauto|reflexivity].
Qed.

Lemma rfind_none_inv c s : rfind c s = None -> ~ In c s.
Proof.
  induction s as [|x s IH]; cbn; auto. destruct (rfind c s); [discriminate|].
  destruct (Ascii.eqb_spec x c); [discriminate|]. intros _ [H|H]; [congruence|]. apply IH; auto.
Qed.

Lemma rfind_app c a b : ~ In c b -> rfind c (a ++ c :: b) = Some (length a).
Proof.
  intros H. induction a as [|x a IH]; cbn.
  - rewrite (rfind_none _ _ H), Ascii.eqb_refl. reflexivity.
  - rewrite IH. reflexivity.
Qed.

Lemma rfind_some c s k : rfind c s = Some k -> exists a b, s = a ++ c :: b /\ length a = k /\ ~ In c b.
Proof.
  revert k; induction s as [|x s IH]; intros k; cbn; [discriminate|].
  destruct (rfind c s) as [j|] eqn:E.
  - intros [= <-]. destruct (IH j eq_refl) as (a & b & -> & Hl & Hn). exists (x :: a), b. cbn. auto.
  - destruct (Ascii.eqb_spec x c) as [->|]; [|discriminate]. intros [= <-].
    exists [], s. repeat split; auto. apply rfind_none_inv; assumption.
Qed.

Lemma count_run_repeat sign n r : head_sat (Ascii.eqb sign) r = false -> r <> [] ->
  count_run sign (repeat sign n ++ r) = Ok (Z.of_nat n).
Proof.
  intros H Hr. induction n as [|n IH]; cbn [repeat app count_run].
  - destruct r as [|c r]; [congruence|]. cbn in *. rewrite Ascii.eqb_sym, H. reflexivity.
  - rewrite Ascii.eqb_refl, IH. cbn [omap bind]. f_equal. lia.
Qed.

Lemma count_run_char sign r : (exists c, In c r /\ c <> sign) -> exists k, count_run sign r = Ok k.
Proof.
  induction r as [|x r IH]; cbn.
  - intros (c & [] & _).
  - intros (c & [->|Hc] & Hn).
    + destruct (Ascii.eqb_spec c sign); [congruence|]. eauto.
    + destruct (Ascii.eqb_spec x sign); [|eauto]. destruct IH as [k ->]; eauto. cbn. eauto.
Qed.

Lemma count_run_ub sign r : (forall c, In c r -> c = sign) -> count_run sign r = UB.
Proof.
  induction r as [|x r IH]; cbn; auto. intros H.
  rewrite (H x (or_introl eq_refl)), Ascii.eqb_refl, IH by auto. reflexivity.
Qed.

Lemma repeat_rev {A} (x : A) n : rev (repeat x n) = repeat x n.
Proof.
  induction n; cbn; auto. rewrite IHn. clear. induction n; cbn; auto. f_equal; assumption.
Qed.

Lemma split_suffix_none name : last_opt name <> Some ")"%char -> name <> [] ->
  splitSpeciesNameSuffix name = Ok (name, []).
Proof.
  intros H Hn. unfold splitSpeciesNameSuffix. destruct (last_opt name) as [c|] eqn:E.
  - unfold rpar. destruct (Ascii.eqb_spec c ")"%char); [congruence|]. reflexivity.
  - apply last_opt_none in E. congruence.
Qed.

Lemma split_suffix_some X t : (forall c, In c t -> isupper c = false /\ c <> "("%char) ->
  splitSpeciesNameSuffix (X ++ "("%char :: t ++ [")"%char]) = Ok (X, t).
Proof.
  intros Ht. unfold splitSpeciesNameSuffix.
  assert (last_opt (X ++ "("%char :: t ++ [")"%char]) = Some ")"%char) as ->.
  { change (X ++ "("%char :: t ++ [")"%char]) with (X ++ ("("%char :: t) ++ [")"%char]).
    rewrite app_assoc. apply last_opt_snoc. }
  unfold rpar. cbn [Ascii.eqb Bool.eqb negb]. unfold lpar.
  rewrite rfind_app.
  2:{ intros H. apply in_app_iff in H as [H|[H|[]]]; [|discriminate]. apply Ht in H. tauto. }
  rewrite firstn_app_exact.
  replace (skipn (length X + 1) (X ++ "("%char :: t ++ [")"%char])) with (t ++ [")"%char]).
  2:{ change (X ++ "("%char :: t ++ [")"%char]) with (X ++ ["("%char] ++ t ++ [")"%char]).
      rewrite app_assoc. replace (length X + 1) with (length (X ++ ["("%char])) by (rewrite app_length; reflexivity).
      rewrite skipn_app_exact. reflexivity. }
  replace (length (X ++ "("%char :: t ++ [")"%char]) - length X - 2) with (length t).
  2:{ rewrite app_length. cbn. rewrite app_length. cbn. lia. }
  rewrite firstn_app_exact.
  assert (existsb isupper t = false) as ->; auto.
  destruct (existsb isupper t) eqn:E; auto. apply existsb_exists in E as (c & Hc & E). apply Ht in Hc as [Hc _]. congruence.
Qed.

Lemma stod_digits ds : ds <> [] -> all_digits ds -> exists q, stod ds = Ok q /\ (q == digits_value ds)%Q.
Proof. intros H1 H2. destruct (strtod_digits _ H1 H2) as (q & E & H). exists q. unfold stod. rewrite E. auto. Qed.

Lemma sign_value_nz s : Qeq_bool (sign_value s) 0 = false.
Proof. destruct s; reflexivity. Qed.

Definition charge0 (formula0 : str) : outcome Q :=
  bind (chargeMultipleSigns formula0) (fun c1 =>
  if negb (Z.eqb c1 0) then Ok (inject_Z c1) else
  bind (chargeBrackets formula0) (fun c2 =>
  if negb (Qeq_bool c2 0) then Ok c2 else
  bind (chargeSignNumber formula0) (fun c3 =>
  if negb (Qeq_bool c3 0) then Ok c3 else Ok 0%Q))).

Lemma parseElectricCharge_charge0 name : parseElectricCharge name =
  bind (splitSpeciesNameSuffix name) (fun p => charge0 (fst p)).
Proof.
  unfold parseElectricCharge, charge0. destruct (splitSpeciesNameSuffix name) as [[f s]| |]; reflexivity.
Qed.

Lemma body_last b c : body_wf b -> In c b -> forall s, c <> sign_char s.
Proof. intros [_ H] Hc s. destruct (H c Hc) as (H1 & H2 & _). destruct s; assumption. Qed.

Lemma charge0_repeated b s n : body_wf b -> 1 <= n ->
  exists q, charge0 (b ++ repeat (sign_char s) n) = Ok q /\ (q == sign_value s * inject_Z (Z.of_nat n))%Q.
Proof.
  intros Hb Hn. unfold charge0, chargeMultipleSigns.
  assert (last_opt (b ++ repeat (sign_char s) n) = Some (sign_char s)) as ->.
  { unfold last_opt. rewrite rev_app_distr, repeat_rev. destruct n; [lia|]. reflexivity. }
  rewrite rev_app_distr, repeat_rev, count_run_repeat.
  - destruct s; cbn [sign_char sign_value Ascii.eqb Bool.eqb bind omap];
      match goal with |- context[Z.eqb ?x 0] => destruct (Z.eqb_spec x 0); [lia|] end; cbn [negb];
      eexists; (split; [reflexivity|]); rewrite inject_Z_mult; [ring | change (inject_Z (-1)) with (-(1))%Q; ring].
  - destruct (rev b) as [|c r] eqn:E; cbn; auto. apply Ascii.eqb_neq.
    intros Hc. apply (@body_last b c Hb) with (s := s); auto. apply in_rev. rewrite E. left; reflexivity.
  - destruct Hb as [Hb _]. intros E. apply (f_equal (@rev ascii)) in E. rewrite rev_involutive in E. cbn in E. congruence.
Qed.

Lemma multiple_zero f c x : last_opt f = Some c -> c <> "+"%char -> c <> "-"%char -> In x f -> x <> c ->
  chargeMultipleSigns f = Ok 0%Z.
Proof.
  intros Hl H1 H2 Hx Hn. unfold chargeMultipleSigns. rewrite Hl.
  destruct (Ascii.eqb_spec c "+"%char); [congruence|]. destruct (Ascii.eqb_spec c "-"%char); [congruence|].
  destruct (@count_run_char c (rev f)) as [k ->]. { exists x. split; auto. apply in_rev. rewrite rev_involutive. assumption. }
  cbn. f_equal. lia.
Qed.

Lemma charge0_signnumber b s ds : body_wf b -> ds <> [] -> all_digits ds ->
  exists q, charge0 (b ++ sign_char s :: ds) = Ok q /\ (q == sign_value s * digits_value ds)%Q.
Proof.
  intros Hb Hne Hd.
  destruct (stod_digits _ Hne Hd) as (q0 & Eq0 & Hq0).
  assert (exists c, last_opt (b ++ sign_char s :: ds) = Some c /\ isdigit c = true) as (c & Hl & Hc).
  { destruct ds as [|c ds _] using rev_ind; [congruence|]. exists c. split.
    - change (sign_char s :: ds ++ [c]) with ((sign_char s :: ds) ++ [c]). rewrite app_assoc. apply last_opt_snoc.
    - apply Hd. apply in_app_iff; right; left; reflexivity. }
  assert (c <> sign_char s) as Hcs by (destruct s; apply digit_neq; auto).
  unfold charge0. rewrite (@multiple_zero _ c (sign_char s)); auto.
  2:{ apply digit_neq; auto. } 2:{ apply digit_neq; auto. } 2:{ apply in_app_iff; right; left; reflexivity. }
  cbn [bind Z.eqb negb]. unfold chargeBrackets. rewrite Hl.
  assert (Ascii.eqb c "]" = false) as -> by (apply Ascii.eqb_neq, digit_neq; auto).
  cbn [negb bind]. cbn [Qeq_bool negb]. change (Qeq_bool 0 0) with true. cbn [negb].
  assert (NS : forall s', ~ In (sign_char s') ds).
  { intros s' H. apply Hd in H. destruct s'; discriminate. }
  assert (NB : forall s', ~ In (sign_char s') b).
  { intros s' H. eapply body_last; eauto. }
  assert (Hother : forall s', s' <> s -> rfind (sign_char s') (b ++ sign_char s :: ds) = None).
  { intros s' Hs. apply rfind_none. intros H. apply in_app_iff in H as [H|[H|H]]; [eapply NB; eauto| destruct s, s'; cbn in H; congruence | eapply NS; eauto]. }
  assert (Hthis : rfind (sign_char s) (b ++ sign_char s :: ds) = Some (length b)) by (apply rfind_app; auto).
  assert (Hlen : Nat.eqb (length b + 1) (length (b ++ sign_char s :: ds)) = false).
  { rewrite app_length. cbn. destruct ds; [congruence|]. cbn. apply Nat.eqb_neq. lia. }
  assert (Hskip : skipn (length b + 1) (b ++ sign_char s :: ds) = ds).
  { change (b ++ sign_char s :: ds) with (b ++ [sign_char s] ++ ds). rewrite app_assoc.
    replace (length b + 1) with (length (b ++ [sign_char s])) by (rewrite app_length; reflexivity). apply skipn_app_exact. }
  assert (CS : chargeSignNumber (b ++ sign_char s :: ds) = Ok (sign_value s * q0)%Q).
  { unfold chargeSignNumber. destruct s; cbn [sign_char sign_value] in *.
    - pose proof (Hother Minus ltac:(discriminate)) as Ho. cbn [sign_char] in Ho. rewrite Hthis, Ho, Hlen, Hskip, Eq0. reflexivity.
    - pose proof (Hother Plus ltac:(discriminate)) as Ho. cbn [sign_char] in Ho. rewrite Hthis, Ho, Hlen, Hskip, Eq0. reflexivity. }
  rewrite CS. cbn [bind]. destruct (Qeq_bool (sign_value s * q0) 0) eqn:E; cbn [negb].
  - exists 0%Q. split; auto. apply Qeq_bool_eq in E. rewrite <- Hq0, E. reflexivity.
  - eexists. split; [reflexivity|]. rewrite Hq0. reflexivity.
Qed.

Lemma charge0_brackets_common b ds s : body_wf b -> all_digits ds ->
  chargeMultipleSigns (b ++ "["%char :: ds ++ [sign_char s; "]"%char]) = Ok 0%Z /\
  chargeBrackets (b ++ "["%char :: ds ++ [sign_char s; "]"%char]) =
    match ds with [] => Ok (sign_value s) | _ => omap (Qmult (sign_value s)) (stod ds) end.
Proof.
  intros Hb Hd. set (f := b ++ "["%char :: ds ++ [sign_char s; "]"%char]).
  assert (Hf : f = (b ++ "["%char :: ds ++ [sign_char s]) ++ ["]"%char]).
  { unfold f. rewrite <- app_assoc. cbn. rewrite <- app_assoc. reflexivity. }
  assert (Hl : last_opt f = Some "]"%char) by (rewrite Hf; apply last_opt_snoc).
  split.
  - apply (@multiple_zero _ "]"%char "["%char); auto; try discriminate.
    unfold f. apply in_app_iff; right; left; reflexivity.
  - unfold chargeBrackets. rewrite Hl. cbn [Ascii.eqb Bool.eqb negb].
    assert (rfind "["%char f = Some (length b)) as ->.
    { unfold f. apply rfind_app. intros H. apply in_app_iff in H as [H|[H|[H|[]]]].
      - apply Hd in H. discriminate. - destruct s; discriminate. - discriminate. }
    assert (Lf : length f = length b + length ds + 3) by (unfold f; rewrite app_length; cbn; rewrite app_length; cbn; lia).
    assert (nth_error f (length f - 2) = Some (sign_char s)) as ->.
    { replace (length f - 2) with (length (b ++ "["%char :: ds)) by (rewrite Lf, app_length; cbn; lia).
      unfold f. change (b ++ "["%char :: ds ++ [sign_char s; "]"%char]) with (b ++ ("["%char :: ds) ++ [sign_char s; "]"%char]).
      rewrite app_assoc. rewrite nth_error_app2 by lia. rewrite Nat.sub_diag. reflexivity. }
    assert (skipn (length b + 1) f = ds ++ [sign_char s; "]"%char]) as ->.
    { unfold f. change (b ++ "["%char :: ds ++ [sign_char s; "]"%char]) with (b ++ ["["%char] ++ ds ++ [sign_char s; "]"%char]).
      rewrite app_assoc. replace (length b + 1) with (length (b ++ ["["%char])) by (rewrite app_length; reflexivity). apply skipn_app_exact. }
    replace (length f - 2 - (length b + 1)) with (length ds) by lia. rewrite firstn_app_exact.
    destruct s; cbn; destruct ds; reflexivity.
Qed.

Lemma charge0_bracket b s ds : body_wf b -> ds <> [] -> all_digits ds -> ~ (digits_value ds == 0)%Q ->
  exists q, charge0 (b ++ "["%char :: ds ++ [sign_char s; "]"%char]) = Ok q /\ (q == sign_value s * digits_value ds)%Q.
Proof.
  intros Hb Hne Hd Hz. destruct (charge0_brackets_common b ds s Hb Hd) as [E1 E2].
  destruct (stod_digits _ Hne Hd) as (q0 & Eq0 & Hq0).
  unfold charge0. rewrite E1. cbn [bind Z.eqb negb]. rewrite E2. destruct ds as [|d ds]; [congruence|]. rewrite Eq0. cbn [omap bind].
  destruct (Qeq_bool (sign_value s * q0) 0) eqn:E; cbn [negb].
  - exfalso. apply Hz. apply Qeq_bool_eq in E. rewrite Hq0 in E. destruct s; cbn [sign_value] in E.
    + rewrite Qmult_1_l in E. assumption.
    + setoid_replace (digits_value (d :: ds)) with (- (- (1) * digits_value (d :: ds)))%Q by ring. rewrite E. reflexivity.
  - eexists. split; [reflexivity|]. rewrite Hq0. reflexivity.
Qed.

Lemma charge0_bracketsign b s : body_wf b ->
  exists q, charge0 (b ++ ["["%char; sign_char s; "]"%char]) = Ok q /\ (q == sign_value s)%Q.
Proof.
  intros Hb. destruct (charge0_brackets_common b [] s Hb ltac:(intros ? [])) as [E1 E2]. cbn [app] in *.
  unfold charge0. rewrite E1. cbn [bind Z.eqb negb]. rewrite E2. cbn [bind]. rewrite sign_value_nz. cbn [negb].
  eexists. split; reflexivity.
Qed.

Lemma charge0_notation b k : body_wf b -> charge_wf k ->
  exists q, charge0 (b ++ print_charge k) = Ok q /\ (q == charge_value k)%Q.
Proof.
  intros Hb Hk. destruct k as [s n|s ds|s ds|s]; cbn [print_charge charge_value charge_wf] in *.
  - apply charge0_repeated; assumption.
  - apply charge0_signnumber; tauto.
  - apply charge0_bracket; tauto.
  - apply charge0_bracketsign; assumption.
Qed.

Lemma print_charge_last b k : charge_wf k -> last_opt (b ++ print_charge k) <> Some ")"%char /\ b ++ print_charge k <> [].
Proof.
  intros Hk. assert (exists p c, b ++ print_charge k = p ++ [c] /\ c <> ")"%char) as (p & c & -> & Hc).
  { destruct k as [s n|s ds|s ds|s]; cbn [print_charge charge_wf] in *.
    - exists (b ++ repeat (sign_char s) (n - 1)), (sign_char s). rewrite <- app_assoc. split.
      + replace n with (n - 1 + 1) at 1 by lia. rewrite repeat_app. reflexivity.
      + destruct s; discriminate.
    - destruct Hk as [H1 H2]. destruct ds as [|c ds _] using rev_ind; [congruence|].
      exists (b ++ sign_char s :: ds), c. rewrite <- app_assoc. split; auto.
      intros ->. specialize (H2 ")"%char). rewrite in_app_iff in H2. specialize (H2 (or_intror (or_introl eq_refl))). discriminate.
    - exists (b ++ "["%char :: ds ++ [sign_char s]), "]"%char. rewrite <- !app_assoc. cbn. rewrite <- app_assoc. split; [reflexivity|discriminate].
    - exists (b ++ ["["%char; sign_char s]), "]"%char. rewrite <- !app_assoc. cbn. split; [reflexivity|discriminate]. }
  split.
  - rewrite last_opt_snoc. congruence. - destruct p; discriminate.
Qed.

Lemma charge_notations b k sfx : body_wf b -> charge_wf k -> suffix_wf sfx ->
  exists q, parseElectricCharge (b ++ print_charge k ++ print_suffix sfx) = Ok q /\ (q == charge_value k)%Q.
Proof.
  intros Hb Hk Hs. rewrite parseElectricCharge_charge0.
  destruct sfx as [t|]; cbn [print_suffix suffix_wf] in *.
  - rewrite app_assoc, split_suffix_some by assumption. cbn [bind fst]. apply charge0_notation; assumption.
  - rewrite app_nil_r. destruct (print_charge_last b k Hk) as [H1 H2].
    rewrite split_suffix_none by assumption. cbn [bind fst]. apply charge0_notation; assumption.
Qed.

(* neutral names *)
Lemma charge0_neutral b c x : last_opt b = Some c -> In x b -> x <> c ->
  (forall c, In c b -> c <> "+"%char /\ c <> "-"%char /\ c <> "["%char /\ c <> "]"%char) -> charge0 b = Ok 0%Q.
Proof.
  intros Hl Hx Hn Hb.
  assert (In c b) as Hc. { apply last_opt_some in Hl as [l' ->]. apply in_app_iff; right; left; reflexivity. }
  destruct (Hb c Hc) as (C1 & C2 & C3 & C4).
  unfold charge0. rewrite (@multiple_zero _ c x); auto. cbn [bind Z.eqb negb].
  unfold chargeBrackets. rewrite Hl. assert (Ascii.eqb c "]" = false) as -> by (apply Ascii.eqb_neq; auto). cbn [negb bind].
  change (Qeq_bool 0 0) with true. cbn [negb]. unfold chargeSignNumber.
  rewrite !rfind_none; [reflexivity| |]; intros H; apply Hb in H; tauto.
Qed.

Lemma neutral_name b sfx : body_wf b -> ~ constant b -> last_opt b <> Some ")"%char -> suffix_wf sfx ->
  parseElectricCharge (b ++ print_suffix sfx) = Ok 0%Q.
Proof.
  intros [Hne Hb] Hc Hp Hs. rewrite parseElectricCharge_charge0.
  assert (charge0 b = Ok 0%Q) as E.
  { destruct (last_opt b) as [c|] eqn:El. 2:{ apply last_opt_none in El; congruence. }
    assert (exists x, In x b /\ x <> c) as (x & Hx & Hxc).
    { destruct (existsb (fun x => negb (Ascii.eqb x c)) b) eqn:E.
      - apply existsb_exists in E as (x & Hx & E). exists x. split; auto. intros ->. rewrite Ascii.eqb_refl in E. discriminate.
      - exfalso. apply Hc. exists c. intros d Hd. destruct (Ascii.eqb_spec d c); auto.
        exfalso. assert (existsb (fun x => negb (Ascii.eqb x c)) b = true); [|congruence].
        apply existsb_exists. exists d. split; auto. apply Ascii.eqb_neq in n. rewrite n. reflexivity. }
    eapply charge0_neutral; eauto. }
  destruct sfx as [t|]; cbn [print_suffix suffix_wf] in *.
  - rewrite split_suffix_some by assumption. exact E.
  - rewrite app_nil_r, split_suffix_none by assumption. exact E.
Qed.

(* safety of charge parsing: exactly when it reads out of range *)
Lemma constant_dec s : {constant s} + {~ constant s}.
Proof.
  destruct s as [|c s]; [left; exists "a"%char; intros ? []|].
  destruct (forallb (Ascii.eqb c) s) eqn:E.
  - left. exists c. intros d [<-|H]; auto. rewrite forallb_forall in E. specialize (E d H). apply Ascii.eqb_eq in E. auto.
  - right. intros [x H]. assert (forallb (Ascii.eqb c) s = true); [|congruence].
    apply forallb_forall. intros d Hd. apply Ascii.eqb_eq. rewrite (H c), (H d); cbn; auto.
Qed.

Lemma chargeMultiple_constant f : constant f -> chargeMultipleSigns f = UB.
Proof.
  intros [c Hc]. unfold chargeMultipleSigns. destruct (last_opt f) as [x|] eqn:E; auto.
  rewrite count_run_ub; auto. intros d Hd. apply in_rev in Hd. rewrite (Hc d Hd).
  apply last_opt_some in E as [l' ->]. symmetry. apply Hc. apply in_app_iff; right; left; reflexivity.
Qed.

Lemma chargeMultiple_ok f : ~ constant f -> exists k, chargeMultipleSigns f = Ok k.
Proof.
  intros Hc. unfold chargeMultipleSigns. destruct (last_opt f) as [x|] eqn:E.
  - destruct (@count_run_char x (rev f)) as [k ->]; [|cbn; eauto].
    destruct (existsb (fun d => negb (Ascii.eqb d x)) (rev f)) eqn:E2.
    + apply existsb_exists in E2 as (d & Hd & E2). exists d. split; auto. intros ->. rewrite Ascii.eqb_refl in E2; discriminate.
    + exfalso. apply Hc. exists x. intros d Hd. destruct (Ascii.eqb_spec d x); auto. exfalso.
      assert (existsb (fun d => negb (Ascii.eqb d x)) (rev f) = true); [|congruence].
      apply existsb_exists. exists d. rewrite <- in_rev. split; auto. apply Ascii.eqb_neq in n. rewrite n. reflexivity.
  - apply last_opt_none in E. subst. exfalso. apply Hc. exists "a"%char. intros ? [].
Qed.

Lemma stod_no_ub s : stod s <> UB.
Proof. unfold stod. destruct (strtod s); discriminate. Qed.

Lemma chargeBrackets_no_ub f : f <> [] -> chargeBrackets f <> UB.
Proof.
  intros Hf. unfold chargeBrackets. destruct (last_opt f) as [c|] eqn:E. 2:{ apply last_opt_none in E; congruence. }
  destruct (Ascii.eqb_spec c "]"%char) as [->|]; cbn [negb]; [|discriminate].
  destruct (rfind "[" f) as [k|] eqn:R; [|discriminate].
  destruct (nth_error f (length f - 2)) as [s|] eqn:N.
  - destruct (Qeq_bool _ 0); [discriminate|]. destruct (firstn _ _); [discriminate|].
    pose proof (stod_no_ub (a :: l)). destruct (stod (a :: l)); cbn; congruence.
  - exfalso. apply nth_error_None in N. destruct f as [|x f]; [congruence|]. cbn in N. lia.
Qed.

Lemma chargeSignNumber_no_ub f : chargeSignNumber f <> UB.
Proof.
  unfold chargeSignNumber.
  assert (P : forall i q, (if Nat.eqb (i + 1) (length f) then Ok q else omap (Qmult q) (stod (skipn (i + 1) f))) <> UB).
  { intros i q. destruct (Nat.eqb _ _); [discriminate|]. pose proof (stod_no_ub (skipn (i + 1) f)). destruct (stod _); cbn; congruence. }
  destruct (rfind "+" f), (rfind "-" f); auto; [destruct (Nat.leb _ _); auto | discriminate].
Qed.

Lemma charge0_ub_iff f : charge0 f = UB <-> constant f.
Proof.
  split.
  - intros H. destruct (constant_dec f) as [|n]; auto. exfalso.
    unfold charge0 in H. destruct (chargeMultiple_ok _ n) as [k E]. rewrite E in H. cbn [bind] in H.
    destruct (negb (Z.eqb k 0)); [discriminate|].
    assert (f <> []) as Hf. { intros ->. apply n. exists "a"%char. intros ? []. }
    pose proof (chargeBrackets_no_ub _ Hf). destruct (chargeBrackets f); cbn [bind] in H; try congruence.
    destruct (negb (Qeq_bool a 0)); [discriminate|].
    pose proof (chargeSignNumber_no_ub f). destruct (chargeSignNumber f); cbn [bind] in H; try congruence.
    destruct (negb (Qeq_bool a0 0)); discriminate.
  - intros H. unfold charge0. rewrite chargeMultiple_constant by assumption. reflexivity.
Qed.

Lemma charge_ub_iff name : parseElectricCharge name = UB <->
  name = [] \/ exists base sfx, splitSpeciesNameSuffix name = Ok (base, sfx) /\ constant base.
Proof.
  rewrite parseElectricCharge_charge0. destruct (splitSpeciesNameSuffix name) as [[base sfx]| |] eqn:E; cbn [bind fst].
  - rewrite charge0_ub_iff. split.
    + intros H. right. eauto.
    + intros [->|(b & s & [= -> ->] & H)]; [discriminate E|assumption].
  - split; [discriminate|]. intros [->|(b & s & H & _)]; [discriminate E|discriminate].
  - split; [|reflexivity]. intros _. left. unfold splitSpeciesNameSuffix in E.
    destruct (last_opt name) eqn:L; [|apply last_opt_none; assumption].
    destruct (negb (Ascii.eqb a rpar)); [discriminate|].
    destruct (rfind lpar name); destruct (existsb isupper _); discriminate.
Qed.
