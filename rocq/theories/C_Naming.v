(* C120, C121 and C122: notations of names of species. *)
From Coq Require Import Lia Sorting.Sorted.
From Verif Require Import Base M_Strings M_Formula M_Chem M_Algorithms S_Formula S_Strings P_Strings P_Formula P_Printing P_Ostream P_Algorithms M_Naming S_Naming.
Local Open Scope Z_scope.

(* ---- Decimal numbers ---- *)
Lemma decimal_print f : forall n acc, (n < 10 ^ N.of_nat (S f))%N -> exists d, print_N (S f) n acc = d ++ acc /\ Decimal n d.
Proof.
  induction f as [|f IH]; intros n acc Hn; cbn [print_N]; fold print_N; destruct (N.eqb_spec (n / 10) 0) as [E|E].
  1,3: exists [digit_char (n mod 10)]; split; [reflexivity|]; apply N.div_small_iff in E; [|discriminate]; rewrite N.mod_small by exact E; apply decimal_digit; exact E.
  - exfalso. apply E. apply N.div_small. change (10 ^ N.of_nat 1)%N with 10%N in Hn. exact Hn.
  - destruct (IH (n / 10)%N (digit_char (n mod 10) :: acc)) as (d & E1 & E2).
    { apply N.div_lt_upper_bound; [discriminate|]. rewrite <- N.pow_succ_r', <- Nat2N.inj_succ. exact Hn. }
    exists (d ++ [digit_char (n mod 10)]). split.
    + cbn [print_N] in E1. rewrite E1, <- app_assoc. reflexivity.
    + rewrite (N.div_mod n 10) at 1 by discriminate. apply decimal_more; [lia|apply mod_10|exact E2].
Qed.
Lemma decimal_of n : Decimal n (N_to_string n).
Proof.
  unfold N_to_string. destruct (decimal_print (N.to_nat (N.log2 n)) n []) as (d & E & H).
  - rewrite Nat2N.inj_succ, N2Nat.id. destruct (N.eq_dec n 0) as [->|Hn]; [reflexivity|].
    apply N.lt_le_trans with (2 ^ N.succ (N.log2 n))%N; [apply N.log2_spec; lia|]. apply N.pow_le_mono_l. lia.
  - rewrite app_nil_r in E. rewrite E. exact H.
Qed.
Lemma decimal_unique n s : Decimal n s -> forall m s', Decimal m s' -> n = m -> s = s'.
Proof.
  induction 1 as [d Hd|n d s Hn Hd H IH]; intros m s' H' E; destruct H' as [d' Hd'|n' d' t Hn' Hd' Ht]; try lia; [subst; reflexivity|].
  assert (E1 : n = n') by lia. assert (E2 : d = d') by lia. rewrite (IH _ _ Ht E1), E2. reflexivity.
Qed.
Lemma decimal_iff n s : Decimal n s <-> s = N_to_string n.
Proof. split; [intros H; apply (decimal_unique _ _ H _ _ (decimal_of n) eq_refl)|intros ->; apply decimal_of]. Qed.

(* ---- Splitting of names ---- *)
Lemma marks_sign z : marks (sign_of z) = true /\ Ascii.eqb (sign_of z) "["%char = false /\ Ascii.eqb (sign_of z) "-"%char = (z <? 0) /\ isspace (sign_of z) = false /\ isdigit (sign_of z) = false.
Proof. unfold sign_of. destruct (z <? 0); repeat split; reflexivity. Qed.
Lemma span_plain base c t : Plain base -> marks c = true -> span (fun c => negb (marks c)) (base ++ c :: t) = (base, c :: t).
Proof.
  intros HP Hc. apply span_exact.
  - apply forallb_forall. intros x Hx. destruct (HP x Hx) as (A & B & C). unfold marks, sign_char.
    rewrite (proj2 (Ascii.eqb_neq x "-"%char) A), (proj2 (Ascii.eqb_neq x "+"%char) B), (proj2 (Ascii.eqb_neq x "["%char) C). reflexivity.
  - cbn. rewrite Hc. reflexivity.
Qed.
Lemma last_app {A} (l l' : list A) d x : last (l ++ x :: l') d = last (x :: l') d.
Proof. induction l as [|a l IH]; [reflexivity|]. cbn [app]. rewrite <- IH. cbn [last]. destruct (l ++ x :: l') eqn:E; [destruct l; discriminate E|]. reflexivity. Qed.
Lemma last_in {A} (l : list A) d : l <> [] -> In (last l d) l.
Proof. induction l as [|a l IH]; intros H; [contradiction|]. destruct l as [|b l]; [left; reflexivity|]. right. apply IH. discriminate. Qed.
Lemma last_repeat {A} (x : A) k d : last (repeat x (S k)) d = x.
Proof. induction k as [|k IH]; [reflexivity|]. exact IH. Qed.
Lemma not_space ds : all_digits ds -> trimleft ds = ds.
Proof.
  destruct ds as [|c ds]; intros H; [reflexivity|]. cbn. assert (isspace c = false) as ->; [|reflexivity].
  specialize (H c (or_introl eq_refl)). unfold isdigit, in_range in H. apply andb_true_iff in H as [H1 H2]. apply N.leb_le in H1, H2.
  unfold isspace, in_range. apply orb_false_iff. split; [apply andb_false_iff; right; apply N.leb_gt; lia|apply N.eqb_neq; lia].
Qed.
Lemma stoi_digits n : Z.of_N n <= 2147483647 -> stoi (N_to_string n) = Ok (Z.of_N n).
Proof.
  intros Hn. destruct (N_to_string_spec n) as (H1 & H2 & _). unfold stoi. rewrite (not_space _ H2).
  destruct (N_to_string n) as [|c ds] eqn:E; [contradiction|].
  assert (Hc : isdigit c = true) by (apply H2; left; reflexivity).
  match goal with |- (let '(_, _) := ?X in _) = _ => assert (E2 : X = (false, c :: ds)) end.
  { destruct c as [b0 b1 b2 b3 b4 b5 b6 b7]. clear -Hc. destruct b0, b1, b2, b3, b4, b5, b6, b7; try reflexivity; discriminate Hc. }
  rewrite E2. clear E2.
  pose proof (@span_exact isdigit (c :: ds) [] (forallb_all_digits _ H2) eq_refl) as S. rewrite app_nil_r in S. rewrite S. cbn [fst].
  rewrite <- E, N_digits. destruct (Z.ltb_spec (Z.of_N n) (-2147483648)); [lia|]. destruct (Z.ltb_spec 2147483647 (Z.of_N n)); [lia|]. reflexivity.
Qed.
Lemma stoi_signed z : Charge z -> stoi (sign_of z :: N_to_string (Z.abs_N z)) = Ok z.
Proof.
  intros [Hz Hr]. destruct (N_to_string_spec (Z.abs_N z)) as (H1 & H2 & _). unfold stoi. cbn [trimleft].
  destruct (marks_sign z) as (_ & _ & _ & -> & _).
  pose proof (@span_exact isdigit (N_to_string (Z.abs_N z)) [] (forallb_all_digits _ H2) eq_refl) as S. rewrite app_nil_r in S.
  unfold sign_of. destruct (Z.ltb_spec z 0) as [Hs|Hs]; cbv beta iota; rewrite S; cbn [fst];
    destruct (N_to_string (Z.abs_N z)) as [|c ds] eqn:E; try contradiction; rewrite <- E, N_digits, N2Z.inj_abs_N.
  - destruct (Z.ltb_spec (- Z.abs z) (-2147483648)); [lia|]. destruct (Z.ltb_spec 2147483647 (- Z.abs z)); [lia|]. cbn. f_equal. lia.
  - destruct (Z.ltb_spec (Z.abs z) (-2147483648)); [lia|]. destruct (Z.ltb_spec 2147483647 (Z.abs z)); [lia|]. cbn. f_equal. lia.
Qed.
Lemma find_bracket l r : ~ In "]"%char l -> find_sub $"]" (l ++ "]"%char :: r) = Some (length l).
Proof.
  induction l as [|c l IH]; intros H; [reflexivity|].
  assert (E : Ascii.eqb "]"%char c = false) by (apply Ascii.eqb_neq; intros <-; apply H; left; reflexivity).
  change (find_sub $"]" ((c :: l) ++ "]"%char :: r)) with (if is_prefix $"]" (c :: l ++ "]"%char :: r) then Some 0%nat else option_map S (find_sub $"]" (l ++ "]"%char :: r))).
  change (is_prefix $"]" (c :: l ++ "]"%char :: r)) with (Ascii.eqb "]"%char c && true). rewrite E. cbn [andb].
  rewrite IH; [reflexivity|]. intros C. apply H. right. exact C.
Qed.
Lemma split_written base z name : Plain base -> Charge z -> Written base z name -> splitChargedSpeciesName name = Ok (base, z).
Proof.
  intros HP HC HW. pose proof HC as [Hz Hr]. destruct (marks_sign z) as (Hm & Hb & Hn & _ & Hd).
  destruct HW as [|d H1 HD|H1|d H1 HD]; try apply decimal_iff in HD; try subst d; unfold splitChargedSpeciesName.
  - destruct (Z.abs_nat z) as [|k] eqn:Ek; [lia|]. cbn [repeat]. rewrite span_plain by assumption. rewrite Hb.
    rewrite last_app. change (sign_of z :: repeat (sign_of z) k) with (repeat (sign_of z) (S k)). rewrite last_repeat, Ascii.eqb_refl, Hn.
    rewrite repeat_length, <- Ek. destruct (Z.ltb_spec z 0); do 2 f_equal; lia.
  - destruct (N_to_string_spec (Z.abs_N z)) as (D1 & D2 & _).
    rewrite span_plain by assumption. rewrite Hb, last_app.
    assert (El : last (sign_of z :: N_to_string (Z.abs_N z)) (sign_of z) = last (N_to_string (Z.abs_N z)) (sign_of z)) by (destruct (N_to_string (Z.abs_N z)); [contradiction|reflexivity]).
    rewrite El. assert (Hl : isdigit (last (N_to_string (Z.abs_N z)) (sign_of z)) = true) by (apply D2, last_in; exact D1).
    rewrite Hl. assert (Ascii.eqb (last (N_to_string (Z.abs_N z)) (sign_of z)) (sign_of z) = false) as ->.
    { apply Ascii.eqb_neq. intros C. rewrite C in Hl. congruence. }
    rewrite (stoi_signed z HC). reflexivity.
  - change ($"[" ++ sign_of z :: $"]") with ("["%char :: [sign_of z] ++ "]"%char :: []).
    rewrite span_plain by (assumption || reflexivity). cbn [Ascii.eqb Bool.eqb].
    rewrite find_bracket. 2:{ unfold sign_of. destruct (z <? 0); intros [C|[]]; discriminate C. }
    cbn. rewrite Hn. destruct (Z.ltb_spec z 0); cbn [omap bind]; do 2 f_equal; lia.
  - destruct (N_to_string_spec (Z.abs_N z)) as (D1 & D2 & _).
    replace ($"[" ++ N_to_string (Z.abs_N z) ++ sign_of z :: $"]") with ("["%char :: (N_to_string (Z.abs_N z) ++ [sign_of z]) ++ "]"%char :: []) by (rewrite <- app_assoc; reflexivity).
    rewrite span_plain by (assumption || reflexivity). change (Ascii.eqb "["%char "["%char) with true. cbv iota.
    rewrite find_bracket.
    2:{ intros C. apply in_app_iff in C as [C|[C|[]]]; [specialize (D2 _ C); discriminate D2|]. unfold sign_of in C. destruct (z <? 0); discriminate C. }
    rewrite firstn_app_exact. rewrite last_app. cbn [last]. rewrite app_length. cbn [length].
    destruct (Nat.ltb_spec 1 (length (N_to_string (Z.abs_N z)) + 1)) as [_|C]; [|destruct (N_to_string (Z.abs_N z)); [contradiction|cbn in C; lia]].
    replace (length (N_to_string (Z.abs_N z)) + 1 - 1)%nat with (length (N_to_string (Z.abs_N z))) by lia. rewrite firstn_app_exact.
    rewrite stoi_digits by (rewrite N2Z.inj_abs_N; exact Hr). cbn [bind]. rewrite Hn, N2Z.inj_abs_N. unfold neg_int.
    destruct (Z.eqb_spec (Z.abs z) (-2147483648)); [lia|]. destruct (Z.ltb_spec z 0); cbn [omap bind]; do 2 f_equal; lia.
Qed.

(* ---- Alternatives of charged species ---- *)
Lemma insert_in {A} (ltb : A -> A -> bool) x l y : In y (insert ltb x l) <-> y = x \/ In y l.
Proof. induction l as [|z l IH]; cbn [insert]; [cbn; intuition congruence|]. destruct (ltb x z); cbn [In]; rewrite ?IH; intuition congruence. Qed.
Lemma sort_in {A} (ltb : A -> A -> bool) l y : In y (sort ltb l) <-> In y l.
Proof. unfold sort. induction l as [|x l IH]; cbn [fold_right]; [tauto|]. rewrite insert_in, IH. cbn [In]. intuition congruence. Qed.
Lemma unique_in l y : In y (unique str_eqb str_ltb l) <-> In y l.
Proof. unfold unique. rewrite (dedup_in str_eqb str_eqb_eq). apply sort_in. Qed.
Lemma charged_names base z x : z <> 0 -> In x (chargedNames base z (Z.abs z)) <-> Written base z x.
Proof.
  intros Hz. unfold chargedNames. rewrite unique_in. cbn [In]. fold (sign_of z). replace (Z.to_nat (Z.abs z)) with (Z.abs_nat z) by lia. replace (Z.to_N (Z.abs z)) with (Z.abs_N z) by lia.
  destruct (Z.eqb_spec (Z.abs z) 1) as [E|E].
  - split.
    + intros [<-|[<-|[<-|[]]]]; [apply written_repeated| |apply written_bracket_one; exact E].
      pose proof (written_repeated base z) as H. replace (Z.abs_nat z) with 1%nat in H by lia. exact H.
    + intros H. destruct H as [|d H1 _|_|d H1 _]; try contradiction; [left; reflexivity|right; right; left; reflexivity].
  - split.
    + intros [<-|[<-|[<-|[]]]]; [apply written_repeated|apply written_number; [exact E|apply decimal_of]|apply written_bracket; [exact E|apply decimal_of]].
    + intros H. destruct H as [|d _ HD|H1|d _ HD]; try contradiction; try apply decimal_iff in HD; subst; auto.
Qed.
Definition Sound (m : Charged) : Prop := forall b z l, In ((b, z), l) m -> z <> 0 /\ l = chargedNames b z (Z.abs z).
Lemma lookup_sound m b z l : lookup_charged m b z = Some l -> In ((b, z), l) m.
Proof.
  induction m as [|[[b' z'] l'] m IH]; cbn [lookup_charged]; [discriminate|].
  destruct (str_eqb_spec b' b) as [->|_]; [destruct (Z.eqb_spec z' z) as [->|_]|]; cbn [andb]; intros E.
  - injection E as ->. left. reflexivity.
  - right. exact (IH E).
  - right. exact (IH E).
Qed.
Lemma alternative_sound m name m' l : Sound m -> alternativeChargedSpeciesNames m name = Ok (m', l) -> Sound m' /\ exists b z, splitChargedSpeciesName name = Ok (b, z) /\ z <> 0 /\ l = chargedNames b z (Z.abs z).
Proof.
  intros HS. unfold alternativeChargedSpeciesNames. destruct (splitChargedSpeciesName name) as [[b z]| |]; cbn [bind]; try discriminate.
  unfold abs_int. destruct (Z.eqb_spec z (-2147483648)); cbn [bind]; [discriminate|].
  destruct (Z.eqb_spec z 0) as [|Hz]; [discriminate|].
  destruct (lookup_charged m b z) as [l0|] eqn:E; intros H; injection H as <- <-.
  - split; [exact HS|]. exists b, z. apply lookup_sound, HS in E. tauto.
  - split; [|exists b, z; auto].
    intros b' z' l' I. apply in_app_iff in I as [I|[I|[]]]; [exact (HS _ _ _ I)|]. injection I as <- <- <-. auto.
Qed.
Lemma reachable_sound m : Reachable m -> Sound m.
Proof. induction 1 as [|m name m' l _ IH E]; [intros ? ? ? []|]. apply (alternative_sound _ _ _ _ IH E). Qed.
Lemma alternatives m name base z : Reachable m -> splitChargedSpeciesName name = Ok (base, z) -> Charge z -> exists m' l,
  alternativeChargedSpeciesNames m name = Ok (m', l) /\ Reachable m' /\ forall x, In x l <-> Written base z x.
Proof.
  intros HR Es [Hz Hr]. assert (exists m' l, alternativeChargedSpeciesNames m name = Ok (m', l)) as (m' & l & E).
  { unfold alternativeChargedSpeciesNames. rewrite Es. cbn [bind]. unfold abs_int. destruct (Z.eqb_spec z (-2147483648)); [lia|]. cbn [bind].
    destruct (Z.eqb_spec z 0); [contradiction|]. destruct (lookup_charged m base z); eexists _, _; reflexivity. }
  exists m', l. split; [exact E|]. split; [exact (reachable_call _ _ _ _ HR E)|].
  destruct (alternative_sound _ _ _ _ (reachable_sound _ HR) E) as (_ & b & z' & E1 & _ & ->). rewrite Es in E1. injection E1 as <- <-.
  intros x. apply charged_names. exact Hz.
Qed.
(* A notation stands for one base and one charge. *)
Lemma written_unique b z b' z' a : Plain b -> Charge z -> Plain b' -> Charge z' -> Written b z a -> Written b' z' a -> b = b' /\ z = z'.
Proof. intros. assert (E : Ok (b, z) = Ok (b', z')) by (rewrite <- (split_written b z a), <- (split_written b' z' a); auto). injection E; auto. Qed.

(* C120.  The names of a charged species in the documented notations, Ca++, Ca+2,
   Ca[2+] and Ca[+2], are read as its base and its charge, its conventional name is
   Ca++, and its alternatives are the documented notations; a name that is read is
   in one of the notations. *)
Definition C120_statement : Prop :=
  (forall m base z name, Reachable m -> Plain base -> Charge z -> Written base z name \/ WrittenToo base z name ->
    splitChargedSpeciesName name = Ok (base, z) /\
    conventionalChargedSpeciesName name = Ok (base ++ repeat (sign_of z) (Z.abs_nat z)) /\
    exists m' l, alternativeChargedSpeciesNames m name = Ok (m', l) /\ forall x, In x l <-> Written base z x) /\
  (forall name, splitChargedSpeciesName name <> UB) /\
  (forall name base z, splitChargedSpeciesName name = Ok (base, z) -> Plain base /\ (Written base z name \/ WrittenToo base z name)).

(* The first part, for the three notations Ca++, Ca+2 and Ca[2+]. *)
Theorem C120_partial m base z name : Reachable m -> Plain base -> Charge z -> Written base z name ->
  splitChargedSpeciesName name = Ok (base, z) /\
  conventionalChargedSpeciesName name = Ok (base ++ repeat (sign_of z) (Z.abs_nat z)) /\
  exists m' l, alternativeChargedSpeciesNames m name = Ok (m', l) /\ Reachable m' /\ forall x, In x l <-> Written base z x.
Proof.
  intros HR HP HC HW. pose proof (split_written _ _ _ HP HC HW) as E. split; [exact E|]. split; [|exact (alternatives _ _ _ _ HR E HC)].
  unfold conventionalChargedSpeciesName. rewrite E. cbn [bind]. unfold abs_int. destruct HC as [Hz Hr]. destruct (Z.eqb_spec z (-2147483648)); [lia|]. cbn [bind].
  replace (Z.to_nat (Z.abs z)) with (Z.abs_nat z) by lia. reflexivity.
Qed.
Print Assumptions C120_partial.
(* Two such names are alternatives of each other exactly if they have the same
   base and the same charge, whatever was asked before. *)
Theorem C120_same_partial m b z a b' z' a' : Reachable m -> Plain b -> Charge z -> Written b z a -> Plain b' -> Charge z' -> Written b' z' a' ->
  exists m' r, isAlternativeChargedSpeciesName m a a' = Ok (m', r) /\ Reachable m' /\ (r = true <-> b = b' /\ z = z').
Proof.
  intros HR P1 C1 W1 P2 C2 W2. destruct (C120_partial m _ _ _ HR P2 C2 W2) as (_ & _ & m' & l & E & HR' & HI).
  exists m', (contains str_eqb l a). split; [unfold isAlternativeChargedSpeciesName; rewrite E; reflexivity|]. split; [exact HR'|].
  rewrite (contains_spec str_eqb str_eqb_eq), HI. split.
  - intros W. exact (written_unique _ _ _ _ _ P1 C1 P2 C2 W1 W).
  - intros [<- <-]. exact W1.
Qed.
Print Assumptions C120_same_partial.
(* The documented Mg[+2] is not read. *)
Lemma plain_check s : forallb (fun c => negb (marks c)) s = true -> Plain s.
Proof.
  intros H c I. rewrite forallb_forall in H. specialize (H c I). unfold marks, sign_char in H.
  destruct (Ascii.eqb_spec c "-"%char); [discriminate|]. destruct (Ascii.eqb_spec c "+"%char); [discriminate|]. destruct (Ascii.eqb_spec c "["%char); [discriminate|]. auto.
Qed.
Theorem C120_signed_refuted : exists base z name, Plain base /\ Charge z /\ WrittenToo base z name /\ splitChargedSpeciesName name = Err.
Proof.
  exists $"Mg", 2, $"Mg[+2]". split; [apply plain_check; reflexivity|]. split; [split; [discriminate|cbn; lia]|]. split; [|reflexivity].
  apply (written_signed $"Mg" 2 $"2"). apply decimal_iff. reflexivity.
Qed.
Print Assumptions C120_signed_refuted.
(* Every name without - + [ is read out of range. *)
Theorem C120_neutral_refuted m name : Plain name ->
  splitChargedSpeciesName name = UB /\ chargeInSpeciesName name = UB /\ conventionalChargedSpeciesName name = UB /\ alternativeChargedSpeciesNames m name = UB.
Proof.
  intros HP. assert (E : splitChargedSpeciesName name = UB).
  { unfold splitChargedSpeciesName. rewrite <- (app_nil_r name), span_exact; [reflexivity| |reflexivity].
    apply forallb_forall. intros x Hx. destruct (HP x Hx) as (A & B & C). unfold marks, sign_char.
    rewrite (proj2 (Ascii.eqb_neq x "-"%char) A), (proj2 (Ascii.eqb_neq x "+"%char) B), (proj2 (Ascii.eqb_neq x "["%char) C). reflexivity. }
  split; [exact E|]. unfold chargeInSpeciesName, conventionalChargedSpeciesName, alternativeChargedSpeciesNames. rewrite E. auto.
Qed.
Print Assumptions C120_neutral_refuted.
(* Names in none of the notations are read: Ca[2] has charge +1, and Na+1, read as
   Na with charge +1, is not an alternative of itself. *)
Lemma not_written base z name : (forall x, In x (chargedNames base z (Z.abs z)) -> x <> name) -> z <> 0 -> ~ Written base z name.
Proof. intros H Hz W. apply (charged_names base z name Hz) in W. exact (H _ W eq_refl). Qed.
Theorem C120_accepted_refuted :
  (splitChargedSpeciesName $"Ca[2]" = Ok ($"Ca", 1) /\ ~ Written $"Ca" 1 $"Ca[2]" /\ ~ WrittenToo $"Ca" 1 $"Ca[2]") /\
  (splitChargedSpeciesName $"Na+1" = Ok ($"Na", 1) /\ exists m, isAlternativeChargedSpeciesName [] $"Na+1" $"Na+1" = Ok (m, false)).
Proof.
  split; split; [reflexivity| |reflexivity|eexists; reflexivity]. split.
  - apply not_written; [|discriminate]. vm_compute. intros x [<-|[<-|[]]]; discriminate.
  - intros H. inversion H.
Qed.
Print Assumptions C120_accepted_refuted.
(* The charge read from any name, well written or not, is an int. *)
Definition Int (z : Z) : Prop := -2147483648 <= z <= 2147483647.
Lemma stoi_int s v : stoi s = Ok v -> Int v.
Proof.
  unfold stoi. match goal with |- (let '(_, _) := ?X in _) = _ -> _ => destruct X as [neg t] end.
  destruct (fst (span isdigit t)) as [|c ds]; [discriminate|]. set (w := if neg then _ else _). cbv zeta.
  destruct (Z.ltb_spec w (-2147483648)); [discriminate|]. destruct (Z.ltb_spec 2147483647 w); [discriminate|].
  cbn. intros E. injection E as <-. split; assumption.
Qed.
Theorem C120_range_partial name base z : (N.of_nat (length name) <= 2147483647)%N ->
  splitChargedSpeciesName name = Ok (base, z) -> -2147483648 <= z <= 2147483647.
Proof.
  intros HL. unfold splitChargedSpeciesName. destruct (span (fun c => negb (marks c)) name) as [b rest] eqn:S.
  destruct rest as [|c tail]; [discriminate|]. destruct (Ascii.eqb c "["%char).
  - destruct (find_sub $"]" tail) as [n|]; [|discriminate]. set (numb := if Nat.ltb _ _ then _ else _). cbv zeta.
    destruct (stoi numb) as [v| |] eqn:E; try discriminate. cbn [bind]. apply stoi_int in E. destruct E as [E1 E2].
    destruct (Ascii.eqb (last (firstn n tail) c) "-"%char).
    + unfold neg_int. destruct (Z.eqb_spec v (-2147483648)); [discriminate|]. cbn [omap bind]. intros H. injection H as _ <-. lia.
    + intros H. injection H as _ <-. lia.
  - assert (L : (length (c :: tail) <= length name)%nat).
    { pose proof (span_length (fun c => negb (marks c)) name) as L. rewrite S in L. exact L. }
    destruct (Ascii.eqb (last name c) c).
    + cbv zeta. remember (length (c :: tail)) as k eqn:Ek. clear Ek. intros H. injection H as _ <-. destruct (Ascii.eqb c "-"%char); lia.
    + destruct (isdigit (last name c)); [|discriminate]. destruct (stoi (c :: tail)) as [v| |] eqn:E; try discriminate.
      cbn [bind]. intros H. injection H as _ <-. apply stoi_int in E. exact E.
Qed.
Print Assumptions C120_range_partial.
(* The alternatives are listed in the order of words in a dictionary of characters, each once. *)
Inductive Before : str -> str -> Prop :=
| before_end y b : Before [] (y :: b)
| before_here x y a b : (N_of_ascii x < N_of_ascii y)%N -> Before (x :: a) (y :: b)
| before_later x a b : Before a b -> Before (x :: a) (x :: b).
Lemma before_spec a : forall b, str_ltb a b = true <-> Before a b.
Proof.
  induction a as [|x a IH]; intros [|y b]; cbn [str_ltb].
  - split; [discriminate|intros H; inversion H].
  - split; [intros _; constructor|reflexivity].
  - split; [discriminate|intros H; inversion H].
  - unfold code. destruct (N.eqb_spec (N_of_ascii x) (N_of_ascii y)) as [E|E].
    + assert (x = y) as <- by (rewrite <- (ascii_N_embedding x), <- (ascii_N_embedding y), E; reflexivity). rewrite IH. split.
      * apply before_later.
      * intros H. inversion H; subst; [lia|assumption].
    + rewrite N.ltb_lt. split; [apply before_here|]. intros H. inversion H; subst; [assumption|congruence].
Qed.
Lemma before_trans a b c : Before a b -> Before b c -> Before a c.
Proof.
  intros H. revert c. induction H as [y b|x y a b L|x a b H IH]; intros c G; inversion G; subst; try (constructor; fail); try (apply before_here; assumption || lia).
  apply before_later. apply IH. assumption.
Qed.
Lemma before_irrefl a : ~ Before a a.
Proof. induction a as [|x a IH]; intros H; inversion H; subst; [lia|contradiction]. Qed.
Lemma before_total a : forall b, Before a b \/ a = b \/ Before b a.
Proof.
  induction a as [|x a IH]; intros [|y b]; try (left; constructor; fail); try (right; right; constructor; fail); [right; left; reflexivity|].
  destruct (N.lt_trichotomy (N_of_ascii x) (N_of_ascii y)) as [L|[L|L]]; [left; apply before_here; exact L| |right; right; apply before_here; exact L].
  assert (x = y) as <- by (rewrite <- (ascii_N_embedding x), <- (ascii_N_embedding y), L; reflexivity).
  destruct (IH b) as [H|[<-|H]]; [left; apply before_later; exact H|right; left; reflexivity|right; right; apply before_later; exact H].
Qed.
Lemma unique_sorted l : StronglySorted Before (unique str_eqb str_ltb l).
Proof.
  assert (H : StronglySorted (fun x y => str_ltb x y = true) (unique str_eqb str_ltb l)).
  { apply (unique_spec str_eqb str_eqb_eq str_ltb); unfold P_Algorithms.lt.
    - intros x y z. rewrite !before_spec. apply before_trans.
    - intros x. rewrite before_spec. apply before_irrefl.
    - intros x y. rewrite !before_spec. apply before_total. }
  induction H as [|x m H IH F]; constructor; [exact IH|]. rewrite Forall_forall in *. intros y I. apply before_spec, F, I.
Qed.
Theorem C120_order_partial m name m' l : Reachable m -> alternativeChargedSpeciesNames m name = Ok (m', l) -> StronglySorted Before l.
Proof.
  intros HR E. unfold alternativeChargedSpeciesNames in E. destruct (splitChargedSpeciesName name) as [[base z]| |]; try discriminate E. cbn [bind] in E.
  destruct (abs_int z) as [n| |]; try discriminate E. cbn [bind] in E. destruct (z =? 0); [discriminate E|].
  destruct (lookup_charged m base z) as [l0|] eqn:EL; injection E as <- <-; [|apply unique_sorted].
  apply lookup_sound in EL. destruct (reachable_sound m HR _ _ _ EL) as [_ ->]. apply unique_sorted.
Qed.
Print Assumptions C120_order_partial.
(* A bracket that is not closed is refused. *)
Lemma find_none c l : ~ In c l -> find_sub [c] l = None.
Proof.
  induction l as [|x l IH]; intros H; [reflexivity|].
  change (find_sub [c] (x :: l)) with (if is_prefix [c] (x :: l) then Some 0%nat else option_map S (find_sub [c] l)).
  change (is_prefix [c] (x :: l)) with (Ascii.eqb c x && true). rewrite (proj2 (Ascii.eqb_neq c x)) by (intros ->; apply H; left; reflexivity).
  cbn [andb]. rewrite IH; [reflexivity|]. intros C. apply H. right. exact C.
Qed.
Theorem C120_unclosed_partial base rest m : Plain base -> ~ In "]"%char rest ->
  splitChargedSpeciesName (base ++ "["%char :: rest) = Err /\ alternativeChargedSpeciesNames m (base ++ "["%char :: rest) = Err.
Proof.
  intros HP H. assert (E : splitChargedSpeciesName (base ++ "["%char :: rest) = Err).
  { unfold splitChargedSpeciesName. rewrite span_plain by (assumption || reflexivity). change (Ascii.eqb "["%char "["%char) with true. cbv iota.
    change $"]" with ["]"%char]. rewrite find_none by exact H. reflexivity. }
  split; [exact E|]. unfold alternativeChargedSpeciesNames. rewrite E. reflexivity.
Qed.
Print Assumptions C120_unclosed_partial.
Theorem C120_refuted : ~ C120_statement.
Proof.
  intros (H & _). destruct C120_signed_refuted as (b & z & n & P & C & W & E). destruct (H [] b z n reachable_empty P C (or_intror W)) as (E' & _). congruence.
Qed.
Print Assumptions C120_refuted.
Example C120_nonvacuous : Plain $"Fe(CO3)2" /\ Charge (-12) /\ Written $"Fe(CO3)2" (-12) $"Fe(CO3)2-12" /\ Written $"Fe(CO3)2" (-12) $"Fe(CO3)2[12-]" /\
  omap snd (isAlternativeChargedSpeciesName [] $"Fe(CO3)2[12-]" $"Fe(CO3)2-12") = Ok true /\ Plain $"CO2(aq)".
Proof.
  split; [apply plain_check; reflexivity|]. split; [split; [discriminate|cbn; lia]|].
  split; [apply (written_number $"Fe(CO3)2" (-12) $"12"); [discriminate|apply decimal_iff; reflexivity]|].
  split; [apply (written_bracket $"Fe(CO3)2" (-12) $"12"); [discriminate|apply decimal_iff; reflexivity]|]. split; [reflexivity|apply plain_check; reflexivity].
Qed.

(* ---- Neutral species ---- *)
Lemma is_prefix_app p s : is_prefix p s = true -> exists r, s = p ++ r.
Proof.
  revert s. induction p as [|c p IH]; intros s H; [exists s; reflexivity|]. destruct s as [|d s]; [discriminate|]. cbn [is_prefix] in H.
  apply andb_true_iff in H as [H1 H2]. apply Ascii.eqb_eq in H1. subst d. destruct (IH _ H2) as [r ->]. exists r. reflexivity.
Qed.
Lemma find_after sub base s : (forall a b, base <> a ++ sub ++ b) -> (forall c t, s = c :: t -> ~ In c (tl sub)) ->
  find_sub sub (base ++ s) = option_map (Nat.add (length base)) (find_sub sub s).
Proof.
  intros HB HS. induction base as [|c base IH]; [cbn [app length]; destruct (find_sub sub s); reflexivity|].
  cbn [app]. change (find_sub sub (c :: base ++ s)) with (if is_prefix sub (c :: base ++ s) then Some 0%nat else option_map S (find_sub sub (base ++ s))). destruct (is_prefix sub (c :: base ++ s)) eqn:E.
  - exfalso. apply is_prefix_app in E as [r E]. change (c :: base ++ s) with ((c :: base) ++ s) in E.
    apply app_eq_app in E as (l & [[E1 E2]|[E1 E2]]); [exact (HB [] l E1)|].
    destruct l as [|x l]; [apply (HB [] []); cbn [app]; rewrite app_nil_r in *; congruence|].
    apply (HS x (l ++ r) E2). rewrite E1. cbn [tl app]. apply in_or_app. right. left. reflexivity.
  - rewrite IH; [destruct (find_sub sub s); reflexivity|]. intros a b C. apply (HB (c :: a) b). rewrite C. reflexivity.
Qed.
Lemma base_neutral base s : Unsuffixed base -> In s neutral_suffixes -> baseNameNeutralSpecies (base ++ s) = base.
Proof.
  intros HU HI. unfold baseNameNeutralSpecies.
  rewrite !find_after; try (intros a b; apply HU; cbn [In]; tauto);
    try (intros c t E; destruct HI as [<-|[<-|[<-|[<-|[]]]]]; try discriminate E; injection E as <- _; vm_compute; intuition discriminate).
  destruct HI as [<-|[<-|[<-|[<-|[]]]]]; [|change (find_sub $"(aq)" []) with (@None nat); change (find_sub $"@" []) with (@None nat); change (find_sub $",aq" []) with (@None nat); cbn [option_map]; apply app_nil_r| |].
  - change (find_sub $"(aq)" $"(aq)") with (Some 0%nat). cbn [option_map]. rewrite Nat.add_0_r. apply firstn_app_exact.
  - change (find_sub $"(aq)" $"@") with (@None nat). change (find_sub $"@" $"@") with (Some 0%nat). cbn [option_map]. rewrite Nat.add_0_r. apply firstn_app_exact.
  - change (find_sub $"(aq)" $",aq") with (@None nat). change (find_sub $"@" $",aq") with (@None nat). change (find_sub $",aq" $",aq") with (Some 0%nat). cbn [option_map]. rewrite Nat.add_0_r. apply firstn_app_exact.
Qed.
Lemma neutral_names base x : In x (neutralNames base) <-> exists s, In s neutral_suffixes /\ x = base ++ s.
Proof.
  unfold neutralNames. rewrite unique_in. unfold neutral_suffixes. cbn [In]. split.
  - intros [<-|[<-|[<-|[<-|[]]]]]; eexists; (split; [|reflexivity || symmetry; apply app_nil_r]); auto.
  - intros (s & [<-|[<-|[<-|[<-|[]]]]] & ->); rewrite ?app_nil_r; auto.
Qed.
Lemma neutral_sound m : ReachableNeutral m -> forall b l, In (b, l) m -> l = neutralNames b.
Proof.
  induction 1 as [|m name _ IH]; [intros ? ? []|]. intros b l. unfold alternativeNeutralSpeciesNames.
  destruct (find _ m) as [[b0 l0]|]; cbn [fst]; [apply IH|]. intros I. apply in_app_iff in I as [I|[I|[]]]; [exact (IH _ _ I)|]. injection I as <- <-. reflexivity.
Qed.
Lemma alternatives_neutral m name : ReachableNeutral m -> snd (alternativeNeutralSpeciesNames m name) = neutralNames (baseNameNeutralSpecies name).
Proof.
  intros HR. unfold alternativeNeutralSpeciesNames. destruct (find _ m) as [[b l]|] eqn:E; [|reflexivity]. cbn [snd].
  apply find_some in E as [I E]. cbn [fst] in E. apply str_eqb_eq in E. subst b. exact (neutral_sound m HR _ _ I).
Qed.
(* C121.  The notations CO2(aq), CO2, CO2@ and CO2,aq of a neutral species stand for
   the same base; its conventional name is CO2(aq); its alternatives are these four;
   names are alternatives of each other exactly if their bases are the same. *)
Theorem C121_notations m base s : ReachableNeutral m -> Unsuffixed base -> In s neutral_suffixes ->
  baseNameNeutralSpecies (base ++ s) = base /\
  conventionalNeutralSpeciesName (base ++ s) = base ++ $"(aq)" /\
  forall x, In x (snd (alternativeNeutralSpeciesNames m (base ++ s))) <-> exists s', In s' neutral_suffixes /\ x = base ++ s'.
Proof.
  intros HR HU HI. pose proof (base_neutral base s HU HI) as E. split; [exact E|]. split; [unfold conventionalNeutralSpeciesName; rewrite E; reflexivity|].
  intros x. rewrite (alternatives_neutral m _ HR), E. apply neutral_names.
Qed.
Print Assumptions C121_notations.
(* They are listed in the order of words in a dictionary of characters, each once. *)
Theorem C121_order m name : ReachableNeutral m -> StronglySorted Before (snd (alternativeNeutralSpeciesNames m name)).
Proof. intros HR. rewrite alternatives_neutral by exact HR. apply unique_sorted. Qed.
Print Assumptions C121_order.
Theorem C121_same m b s b' s' : ReachableNeutral m -> Unsuffixed b -> In s neutral_suffixes -> Unsuffixed b' -> In s' neutral_suffixes ->
  ReachableNeutral (fst (isAlternativeNeutralSpeciesName m (b ++ s) (b' ++ s'))) /\
  (snd (isAlternativeNeutralSpeciesName m (b ++ s) (b' ++ s')) = true <-> b = b').
Proof.
  intros HR HU HI HU' HI'. unfold isAlternativeNeutralSpeciesName. pose proof (reachable_neutral m (b' ++ s') HR) as HR'.
  pose proof (proj2 (proj2 (C121_notations m b' s' HR HU' HI')) (b ++ s)) as H.
  destruct (alternativeNeutralSpeciesNames m (b' ++ s')) as [m' l]. cbn [fst snd] in *. split; [exact HR'|].
  rewrite (contains_spec str_eqb str_eqb_eq), H. split.
  - intros (s2 & I & E). rewrite <- (base_neutral b s HU HI), E. apply base_neutral; assumption.
  - intros <-. exists s. auto.
Qed.
Print Assumptions C121_same.
Lemma unsuffixed_check base : find_sub $"(aq)" base = None -> find_sub $"@" base = None -> find_sub $",aq" base = None -> Unsuffixed base.
Proof.
  intros H1 H2 H3 s a b [<-|[<-|[<-|[]]]] E; [apply (find_sub_none _ _ H1 (length a))|apply (find_sub_none _ _ H2 (length a))|apply (find_sub_none _ _ H3 (length a))]; exists a, b; auto.
Qed.
Example C121_nonvacuous : Unsuffixed $"CaCO3" /\ Unsuffixed $"CO2" /\
  snd (isAlternativeNeutralSpeciesName [] $"CO2@" $"CO2(aq)") = true /\ snd (isAlternativeNeutralSpeciesName [] $"CaCO3,aq" $"CO2(aq)") = false.
Proof. split; [apply unsuffixed_check; reflexivity|]. split; [apply unsuffixed_check; reflexivity|]. split; reflexivity. Qed.

(* ---- Effective ionic radii of the HKF model ---- *)
Definition split_is (key b : str) (z : Z) : bool :=
  match splitChargedSpeciesName key with Ok (b', z') => str_eqb b' b && Z.eqb z' z | _ => false end.
Definition key_fine (key : str) : bool :=
  match splitChargedSpeciesName key with
  | Ok (b, z) => negb (Z.eqb z 0) && Z.leb (Z.abs z) 2147483647 && forallb (fun c => negb (marks c)) b && str_eqb key (b ++ repeat (sign_of z) (Z.abs_nat z))
  | _ => false
  end.
Lemma key_fine_spec key : key_fine key = true -> exists b z, splitChargedSpeciesName key = Ok (b, z) /\ Plain b /\ Charge z /\ Written b z key.
Proof.
  unfold key_fine. destruct (splitChargedSpeciesName key) as [[b z]| |]; try discriminate. intros H.
  apply andb_true_iff in H as [H H4]. apply andb_true_iff in H as [H H3]. apply andb_true_iff in H as [H1 H2].
  exists b, z. split; [reflexivity|]. split; [apply plain_check; exact H3|]. split; [split; [intros ->; discriminate H1|apply Z.leb_le; exact H2]|].
  apply str_eqb_eq in H4. rewrite H4. apply written_repeated.
Qed.
Fixpoint keys_differ (l : list (str * Z)) : bool :=
  match l with
  | [] => true
  | (key, _) :: l' => match splitChargedSpeciesName key with Ok (b, z) => forallb (fun k => negb (split_is (fst k) b z)) l' | _ => false end && keys_differ l'
  end.
Lemma radius_of_spec table : forall m name, Reachable m -> forallb (fun k => key_fine (fst k)) table = true ->
  exists m' r, radius_of m table name = Ok (m', r) /\ Reachable m' /\
  match r with Some v => Ion table name v | None => forall v, ~ Ion table name v end.
Proof.
  induction table as [|[key r] table IH]; intros m name HR HK; cbn [radius_of].
  - exists m, None. split; [reflexivity|]. split; [exact HR|]. intros v (k & b & z & [] & _).
  - cbn [forallb fst] in HK. apply andb_true_iff in HK as [H1 H2]. destruct (key_fine_spec _ H1) as (b & z & Es & HP & HC & HW).
    destruct (alternatives m key b z HR Es HC) as (m1 & l & E & HR1 & HI). unfold isAlternativeChargedSpeciesName. rewrite E. cbn [bind].
    destruct (contains str_eqb l name) eqn:Ec.
    + exists m1, (Some r). split; [reflexivity|]. split; [exact HR1|]. apply (contains_spec str_eqb str_eqb_eq), HI in Ec.
      exists key, b, z. split; [left; reflexivity|]. auto.
    + destruct (IH m1 name HR1 H2) as (m2 & r2 & E2 & HR2 & HS). exists m2, r2. split; [exact E2|]. split; [exact HR2|].
      destruct r2 as [v|].
      * destruct HS as (k & b' & z' & I & HS). exists k, b', z'. split; [right; exact I|exact HS].
      * intros v (k & b' & z' & I & HP' & HC' & HW' & HN). destruct I as [I|I]; [|apply (HS v); exists k, b', z'; auto].
        injection I as <- <-. destruct (written_unique _ _ _ _ _ HP' HC' HP HC HW' HW) as [-> ->].
        apply HI, (contains_spec str_eqb str_eqb_eq) in HN. congruence.
Qed.
Lemma ion_unique table name : keys_differ table = true -> forall v v', Ion table name v -> Ion table name v' -> v = v'.
Proof.
  intros HD v v' (k & b & z & I & P & C & W & N) (k' & b' & z' & I' & P' & C' & W' & N').
  destruct (written_unique _ _ _ _ _ P C P' C' N N') as [<- <-].
  pose proof (split_written _ _ _ P C W) as E. pose proof (split_written _ _ _ P C W') as E'. clear -HD I I' E E'.
  assert (HX : forall x, splitChargedSpeciesName x = Ok (b, z) -> split_is x b z = true).
  { intros x Ex. unfold split_is. rewrite Ex, str_eqb_refl, Z.eqb_refl. reflexivity. }
  induction table as [|[k0 r0] t IH]; [contradiction|]. cbn [keys_differ] in HD. apply andb_true_iff in HD as [H1 H2].
  destruct I as [I|I], I' as [I'|I']; [congruence| | |exact (IH H2 I I')]; exfalso.
  - injection I as -> ->. rewrite E in H1. rewrite forallb_forall in H1. specialize (H1 _ I'). cbn [fst] in H1. rewrite (HX _ E') in H1. discriminate H1.
  - injection I' as -> ->. rewrite E' in H1. rewrite forallb_forall in H1. specialize (H1 _ I). cbn [fst] in H1. rewrite (HX _ E) in H1. discriminate H1.
Qed.
Lemma radii_fine : forallb (fun k => key_fine (fst k)) effective_radii = true. Proof. vm_compute. reflexivity. Qed.
Lemma radii_differ : keys_differ effective_radii = true. Proof. vm_compute. reflexivity. Qed.
(* C122.  The effective radius of an ion of the table is that of the table in each
   of the notations of its name. *)
Definition C122_statement : Prop := forall m key r b z name, Reachable m -> In (key, r) effective_radii -> Plain b -> Charge z -> Written b z key ->
  Written b z name \/ WrittenToo b z name -> exists m', effectiveIonicRadius m name z = Ok (m', inject_Z r / 100)%Q.
Theorem C122_partial m key r b z name : Reachable m -> In (key, r) effective_radii -> Plain b -> Charge z -> Written b z key ->
  Written b z name -> exists m', effectiveIonicRadius m name z = Ok (m', (inject_Z r / 100)%Q).
Proof.
  intros HR HI HP HC HW HN. destruct (radius_of_spec effective_radii m name HR radii_fine) as (m' & o & E & _ & HS).
  assert (HIon : Ion effective_radii name r) by (exists key, b, z; auto).
  exists m'. unfold effectiveIonicRadius. rewrite E. cbn [omap bind]. destruct o as [v|]; [|destruct (HS r HIon)].
  rewrite (ion_unique _ _ radii_differ _ _ HS HIon). reflexivity.
Qed.
Print Assumptions C122_partial.
(* The radius of any other species is a function of its charge alone, and every
   charged species has a positive radius. *)
Theorem C122_others_partial m m' name (name' : str) Zi : Reachable m -> Reachable m' ->
  (exists n r, effectiveIonicRadius m name Zi = Ok (n, r) /\ Reachable n /\ (Zi <> 0 -> (0 < r)%Q)) /\
  ((forall r, ~ Ion effective_radii name r) -> (forall r, ~ Ion effective_radii name' r) ->
    omap snd (effectiveIonicRadius m name Zi) = omap snd (effectiveIonicRadius m' name' Zi)).
Proof.
  intros HR HR'.
  destruct (radius_of_spec effective_radii m name HR radii_fine) as (n & o & E & HRn & HS).
  destruct (radius_of_spec effective_radii m' name' HR' radii_fine) as (n' & o' & E' & _ & HS').
  unfold effectiveIonicRadius. rewrite E, E'. split.
  - eexists n, _. split; [reflexivity|]. split; [exact HRn|]. intros HZ. destruct o as [v|].
    + destruct HS as (k & b & z & I & _). assert (Hv : 0 < v).
      { assert (H : forallb (fun x => Z.ltb 0 (snd x)) effective_radii = true) by (vm_compute; reflexivity).
        rewrite forallb_forall in H. specialize (H _ I). apply Z.ltb_lt in H. exact H. }
      unfold Qdiv. apply Qmult_lt_0_compat; [|reflexivity]. unfold Qlt, inject_Z. cbn. lia.
    + destruct (Z.eqb_spec Zi (-1)); [reflexivity|]. destruct (Z.eqb_spec Zi (-2)); [reflexivity|]. destruct (Z.eqb_spec Zi (-3)); [reflexivity|].
      destruct (Z.eqb_spec Zi 1); [reflexivity|]. destruct (Z.eqb_spec Zi 2); [reflexivity|]. destruct (Z.eqb_spec Zi 3); [reflexivity|]. destruct (Z.eqb_spec Zi 4); [reflexivity|].
      destruct (Z.ltb_spec Zi (-3)); unfold Qlt, Qdiv, Qmult, Qinv, Qopp, inject_Z; cbn; lia.
  - intros H H'. destruct o as [v|]; [destruct (H v HS)|]. destruct o' as [v|]; [destruct (H' v HS')|]. reflexivity.
Qed.
Print Assumptions C122_others_partial.
(* The radius of other ions: that of Cl- or NH4+ for single charges, the average of the
   table, rounded to 0.1, for charges -2, 2 and 3, and proportional to the charge beyond;
   it grows with the charge. *)
Definition ions_of (z : Z) : list Z :=
  map snd (List.filter (fun x => match splitChargedSpeciesName (fst x) with Ok (_, z') => Z.eqb z' z | _ => false end) effective_radii).
Definition Rounded (r : Q) (l : list Z) : Prop := exists k, (r == inject_Z k / 10)%Q /\ 2 * Z.abs (10 * k * Z.of_nat (length l) - fold_right Z.add 0 l) <= 10 * Z.of_nat (length l).
Definition estimate (Zi : Z) : Q :=
  if Z.eqb Zi (-1) then (181 # 100)%Q else if Z.eqb Zi (-2) then 3%Q else if Z.eqb Zi (-3) then (42 # 10)%Q else
  if Z.eqb Zi 1 then (231 # 100)%Q else if Z.eqb Zi 2 then (28 # 10)%Q else if Z.eqb Zi 3 then (36 # 10)%Q else if Z.eqb Zi 4 then (45 # 10)%Q else
  if Z.ltb Zi (-3) then (- inject_Z Zi * (42 # 10) / 3)%Q else (inject_Z Zi * (45 # 10) / 4)%Q.
Lemma other_radius m name z : Reachable m -> (forall r, ~ Ion effective_radii name r) -> exists n, effectiveIonicRadius m name z = Ok (n, estimate z).
Proof.
  intros HR H. destruct (radius_of_spec effective_radii m name HR radii_fine) as (m' & o & E & _ & HS). unfold effectiveIonicRadius. rewrite E.
  destruct o as [v|]; [destruct (H v HS)|exists m'; reflexivity].
Qed.
Lemma estimate_low z : z <= -3 -> (estimate z == inject_Z (- z) * (14 # 10))%Q.
Proof.
  intros H. unfold estimate. destruct (Z.eqb_spec z (-1)); [lia|]. destruct (Z.eqb_spec z (-2)); [lia|]. destruct (Z.eqb_spec z (-3)) as [->|]; [reflexivity|].
  destruct (Z.eqb_spec z 1); [lia|]. destruct (Z.eqb_spec z 2); [lia|]. destruct (Z.eqb_spec z 3); [lia|]. destruct (Z.eqb_spec z 4); [lia|]. destruct (Z.ltb_spec z (-3)); [|lia].
  unfold Qeq, Qdiv, Qmult, Qinv, Qopp, inject_Z. cbn. lia.
Qed.
Lemma estimate_high z : 4 <= z -> (estimate z == inject_Z z * (9 # 8))%Q.
Proof.
  intros H. unfold estimate. destruct (Z.eqb_spec z (-1)); [lia|]. destruct (Z.eqb_spec z (-2)); [lia|]. destruct (Z.eqb_spec z (-3)); [lia|].
  destruct (Z.eqb_spec z 1); [lia|]. destruct (Z.eqb_spec z 2); [lia|]. destruct (Z.eqb_spec z 3); [lia|]. destruct (Z.eqb_spec z 4) as [->|]; [reflexivity|]. destruct (Z.ltb_spec z (-3)); [lia|].
  unfold Qeq, Qdiv, Qmult, Qinv, Qopp, inject_Z. cbn. lia.
Qed.
Lemma listed_in key r : existsb (fun x => str_eqb (fst x) key && Z.eqb (snd x) r) effective_radii = true -> In (key, r) effective_radii.
Proof.
  intros H. apply existsb_exists in H as ((k, v) & I & E). apply andb_true_iff in E as (E1 & E2). apply str_eqb_eq in E1. apply Z.eqb_eq in E2. cbn [fst snd] in *. subst. exact I.
Qed.
Theorem C122_estimates_partial m m' name (name' : str) z z' : Reachable m -> Reachable m' -> (forall r, ~ Ion effective_radii name r) -> (forall r, ~ Ion effective_radii name' r) ->
  exists n r n' r', effectiveIonicRadius m name z = Ok (n, r) /\ effectiveIonicRadius m' name' z' = Ok (n', r') /\
  (z = -1 -> In ($"Cl-", Qnum (Qred (r * 100))) effective_radii) /\ (z = 1 -> In ($"NH4+", Qnum (Qred (r * 100))) effective_radii) /\
  (z = -2 \/ z = 2 \/ z = 3 -> Rounded r (ions_of z)) /\
  (z <= -3 -> z' <= -3 -> (r * inject_Z z' == r' * inject_Z z)%Q) /\ (4 <= z -> 4 <= z' -> (r * inject_Z z' == r' * inject_Z z)%Q) /\
  (z < z' < 0 -> (r' < r)%Q) /\ (0 < z < z' -> (r < r')%Q).
Proof.
  intros HR HR' H H'. destruct (other_radius m name z HR H) as (n & E). destruct (other_radius m' name' z' HR' H') as (n' & E').
  exists n, (estimate z), n', (estimate z'). split; [exact E|]. split; [exact E'|]. clear.
  split; [intros ->; apply listed_in; vm_compute; reflexivity|]. split; [intros ->; apply listed_in; vm_compute; reflexivity|].
  split. { intros [-> | [-> | ->]]; [exists 30|exists 28|exists 36]; (split; [reflexivity|]); apply Z.leb_le; vm_compute; reflexivity. }
  split. { intros A B. rewrite (estimate_low z A), (estimate_low z' B), !inject_Z_opp. ring. }
  split. { intros A B. rewrite (estimate_high z A), (estimate_high z' B). ring. }
  split.
  - intros (A & B). assert (C : z' = -1 \/ z' = -2 \/ z' <= -3) by lia. destruct (Z.eq_dec z (-2)) as [->|D].
    + assert (z' = -1) as -> by lia. reflexivity.
    + rewrite (estimate_low z) by lia. destruct C as [->|[->|C]]; [| |rewrite (estimate_low z') by lia]; unfold Qlt, Qmult, inject_Z, estimate; cbn; lia.
  - intros (A & B). assert (C : z = 1 \/ z = 2 \/ z = 3 \/ 4 <= z) by lia. destruct (Z.eq_dec z' 2) as [->|D]; [assert (z = 1) as -> by lia; reflexivity|].
    destruct (Z.eq_dec z' 3) as [->|D']; [assert (z = 1 \/ z = 2) as [->| ->] by lia; reflexivity|].
    rewrite (estimate_high z') by lia. destruct C as [->|[->|[->|C]]]; [| | |rewrite (estimate_high z) by lia]; unfold Qlt, Qmult, inject_Z, estimate; cbn; lia.
Qed.
Print Assumptions C122_estimates_partial.
(* Within a group of the periodic table heavier ions have larger radii, in all notations. *)
Inductive Heavier : Z -> str -> str -> Prop :=
| heavier_alkali a b : In (a, b) [($"Li", $"Na"); ($"Na", $"K"); ($"K", $"Rb"); ($"Rb", $"Cs")] -> Heavier 1 a b
| heavier_earth a b : In (a, b) [($"Mg", $"Ca"); ($"Ca", $"Sr"); ($"Sr", $"Ba")] -> Heavier 2 a b
| heavier_halide a b : In (a, b) [($"F", $"Cl"); ($"Cl", $"Br"); ($"Br", $"I")] -> Heavier (-1) a b.
Definition listed (a : str) (z : Z) : option (str * Z) := find (fun x => str_eqb (fst x) (a ++ repeat (sign_of z) (Z.abs_nat z))) effective_radii.
Definition grows (z : Z) (a b : str) : bool :=
  forallb (fun c => negb (marks c)) a && forallb (fun c => negb (marks c)) b && match listed a z, listed b z with Some (_, r), Some (_, r') => Z.ltb r r' | _, _ => false end.
Lemma heavier_grows z a b : Heavier z a b -> Charge z /\ grows z a b = true.
Proof.
  intros H. destruct H as [a b H|a b H|a b H]; (split; [split; [discriminate|cbn; lia]|]); cbn [In] in H;
    repeat (destruct H as [H|H]; [injection H as <- <-; vm_compute; reflexivity|]); destruct H.
Qed.
Lemma listed_spec a z k r : listed a z = Some (k, r) -> In (k, r) effective_radii /\ Written a z k.
Proof. intros H. apply find_some in H as [I E]. split; [exact I|]. apply str_eqb_eq in E. cbn [fst] in E. rewrite E. apply written_repeated. Qed.
Theorem C122_groups_partial m m' z a b name name' : Reachable m -> Reachable m' -> Heavier z a b -> Written a z name -> Written b z name' ->
  exists n r n' r', effectiveIonicRadius m name z = Ok (n, r) /\ effectiveIonicRadius m' name' z = Ok (n', r') /\ (r < r')%Q.
Proof.
  intros HR HR' H W W'. apply heavier_grows in H as (HC & G). unfold grows in G. apply andb_true_iff in G as (G & L). apply andb_true_iff in G as (Pa & Pb).
  destruct (listed a z) as [(k, r)|] eqn:E; [|discriminate L]. destruct (listed b z) as [(k', r')|] eqn:E'; [|discriminate L].
  apply listed_spec in E as (I & K), E' as (I' & K'). apply plain_check in Pa, Pb.
  destruct (C122_partial m k r a z name HR I Pa HC K W) as (n & X). destruct (C122_partial m' k' r' b z name' HR' I' Pb HC K' W') as (n' & X').
  exists n, (inject_Z r / 100)%Q, n', (inject_Z r' / 100)%Q. split; [exact X|]. split; [exact X'|]. apply Z.ltb_lt in L.
  unfold Qdiv. apply Qmult_lt_compat_r; [reflexivity|]. unfold Qlt, inject_Z. cbn. lia.
Qed.
Print Assumptions C122_groups_partial.
(* Magnesium named Mg[+2] has radius 2.80, that of ions that are not in the table;
   Mg++, Mg+2 and Mg[2+] have radius 2.54. *)
Theorem C122_refuted : ~ C122_statement.
Proof.
  intros H. destruct (H [] $"Mg++" 254 $"Mg" 2 $"Mg[+2]") as (m' & E).
  - constructor.
  - unfold effective_radii. do 29 right. left. reflexivity.
  - apply plain_check. reflexivity.
  - split; [discriminate|cbn; lia].
  - apply (written_repeated $"Mg" 2).
  - right. apply (written_signed $"Mg" 2 $"2"). apply decimal_iff. reflexivity.
  - assert (E2 : omap snd (effectiveIonicRadius [] $"Mg[+2]" 2) = Ok (28 # 10)%Q) by (vm_compute; reflexivity).
    rewrite E in E2. discriminate E2.
Qed.
Print Assumptions C122_refuted.
Example C122_nonvacuous : Written $"SO4" (-2) $"SO4--" /\ Written $"SO4" (-2) $"SO4[2-]" /\ In ($"SO4--", 315) effective_radii /\
  omap snd (effectiveIonicRadius [] $"SO4[2-]" (-2)) = Ok (315 / 100)%Q /\ omap snd (effectiveIonicRadius [] $"PO4---" (-3)) = Ok (42 # 10)%Q.
Proof.
  split; [apply (written_repeated $"SO4" (-2))|]. split; [apply (written_bracket $"SO4" (-2) $"2"); [discriminate|apply decimal_iff; reflexivity]|].
  split; [unfold effective_radii; do 38 right; left; reflexivity|]. split; vm_compute; reflexivity.
Qed.
