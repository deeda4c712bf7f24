(* Properties of the gaseous activity models. *)
From Coq Require Import Reals List Bool Lia Lra Permutation.
From Coquelicot Require Import Coquelicot.
Import ListNotations.
From Verif Require Import Base M_Strings M_Formula M_Chem M_Algorithms M_System M_Roots M_CubicEOS M_Aqueous P_Strings P_Algorithms P_Helmholtz P_CubicEOS P_Aqueous S_Activity P_Activity M_Gases P_Gases.
Local Open Scope R_scope.

(* ---- Specification ---- *)
(* A property computed by an activity model. *)
Definition computed (f : ActivityFn) (get : Props -> R) (T P : R) (x : nat -> R) (p : Props * Extra) : R :=
  match f T P x p with Ok (q, _) => get q | _ => 0 end.
Definition Rgas : R := 8.3144621.
(* Species made from their formula, with distinct formulas. *)
Definition distinct_gases (l : list Species) : Prop :=
  (forall s, In s l -> mkChemicalFormula (sp_formula s) = Ok (formula s)) /\ NoDup (map sp_formula l).
(* Amounts m of the species: fractions, changes, and the Gibbs energy of the
   mixture less that of the ideal gases, divided by R T. *)
Definition of_amounts (n : nat) (m : nat -> R) : nat -> R := fun i => m i / Sum n m.
Definition changed (m : nat -> R) (k : nat) (v : R) : nat -> R := fun i => if Nat.eqb i k then v else m i.
Definition reduced_Gibbs (f : ActivityFn) (n : nat) (T P : R) (p : Props * Extra) (m : nat -> R) : R :=
  Sum n m * computed f Gex T P (of_amounts n m) p / (Rgas * T).

(* ---- Where the gases are ---- *)
Lemma indexfn_agree {A} (l : list A) p q : (forall x, In x l -> p x = q x) -> indexfn l p = indexfn l q.
Proof. induction l as [|x l IH]; intros H; [reflexivity|]. cbn [indexfn]. rewrite (H x (or_introl eq_refl)), IH by (intros; apply H; right; assumption). reflexivity. Qed.
Definition where_is (l : list Species) (f : str) : nat := indexfn l (fun s => str_eqb (sp_formula s) f).
Lemma where_found l f : (where_is l f < length l)%nat -> exists s, nth_error l (where_is l f) = Some s /\ sp_formula s = f.
Proof.
  intros H. unfold where_is in *. destruct (indexfn_split l (fun s => str_eqb (sp_formula s) f)) as [(a & x & b & -> & Px & _ & E)|[_ E]]; [|lia].
  exists x. rewrite E, nth_error_app2, Nat.sub_diag by lia. split; [reflexivity|]. apply str_eqb_eq. exact Px.
Qed.
Lemma where_unique l f i s : NoDup (map sp_formula l) -> nth_error l i = Some s -> sp_formula s = f -> where_is l f = i.
Proof.
  intros D Hn E. assert (L : (where_is l f < length l)%nat) by (apply indexfn_lt; exists s; split; [eapply nth_error_In; exact Hn|apply str_eqb_eq; exact E]).
  destruct (where_found l f L) as (s' & Hn' & E'). apply (proj1 (NoDup_nth_error _) D); [rewrite map_length; exact L|]. rewrite !nth_error_map, Hn, Hn'. cbn. congruence.
Qed.
Definition sr_where (l : list Species) : list nat := [where_is l $"H2O"; where_is l $"CO2"; where_is l $"CH4"].
Lemma located l : (forall s, In s l -> In (sp_formula s) sr_supported) -> NoDup (map sp_formula l) ->
  let n := length l in let at_ g := nth g (sr_where l) n in
  (forall k, (k < n)%nat -> exists g, (g < 3)%nat /\ at_ g = k) /\
  (forall g g', (g < 3)%nat -> (g' < 3)%nat -> (at_ g < n)%nat -> at_ g = at_ g' -> g = g').
Proof.
  intros HS HD n at_. split.
  - intros k Hk. destruct (nth_error l k) as [s|] eqn:E; [|apply nth_error_None in E; subst n; lia].
    destruct (HS s (nth_error_In _ _ E)) as [F|[F|[F|[]]]]; symmetry in F; apply (where_unique _ _ _ _ HD E) in F; [exists 0%nat|exists 1%nat|exists 2%nat]; (split; [lia|exact F]).
  - intros g g' Hg Hg' L E. assert (Q : forall f f', (where_is l f < n)%nat -> where_is l f = where_is l f' -> f = f').
    { intros f f' L1 E1. destruct (where_found l f L1) as (s & A & B). assert (L2 : (where_is l f' < length l)%nat) by (rewrite <- E1; exact L1). destruct (where_found l f' L2) as (s' & A' & B'). rewrite <- E1 in A'. congruence. }
    subst at_. destruct g as [|[|[|]]], g' as [|[|[|]]]; try lia; cbn [sr_where nth] in L, E; try reflexivity; apply Q in E; try assumption; discriminate.
Qed.
(* Sums over the species are sums over the gases present. *)
Definition present (idx : list nat) (n : nat) (F : nat -> R) (g : nat) : R := let i := nth g idx n in if Nat.ltb i n then F i else 0.
Lemma sum_present idx n F : (forall k, (k < n)%nat -> exists g, (g < 3)%nat /\ nth g idx n = k) ->
  (forall g g', (g < 3)%nat -> (g' < 3)%nat -> (nth g idx n < n)%nat -> nth g idx n = nth g' idx n -> g = g') ->
  Sum n F = Sum 3 (present idx n F).
Proof.
  intros H1 H2. rewrite (Sum_ext n F (fun k => Sum 3 (fun g => if Nat.eqb (nth g idx n) k then F k else 0))).
  - rewrite Sum_swap. apply Sum_ext. intros g Hg. unfold present. destruct (Nat.ltb_spec (nth g idx n) n) as [L|L].
    + rewrite (Sum_ext n _ (fun k => (if Nat.eqb k (nth g idx n) then 1 else 0) * F k)). 2: { intros k _. rewrite Nat.eqb_sym. destruct (Nat.eqb k (nth g idx n)); ring. }
      clear - L. revert L. generalize (nth g idx n). intros i L. induction n as [|n IH]; [lia|]. cbn [Sum]. destruct (Nat.eqb_spec n i) as [->|Ne].
      * assert (Z : forall k f, (k <= i)%nat -> Sum k (fun j => (if Nat.eqb j i then 1 else 0) * f j) = 0).
        { intros k f. induction k as [|k IHk]; intros Hk; [reflexivity|]. cbn [Sum]. rewrite IHk by lia. destruct (Nat.eqb_spec k i); [lia|ring]. }
        rewrite Z by lia. ring.
      * rewrite IH by lia. ring.
    + rewrite (Sum_ext n _ (fun k => 0 * F k)); [rewrite Sum_scal; ring|]. intros k Hk. destruct (Nat.eqb_spec (nth g idx n) k); [lia|ring].
  - intros k Hk. destruct (H1 k Hk) as (g & Hg & E). assert (U : forall g', (g' < 3)%nat -> Nat.eqb (nth g' idx n) k = Nat.eqb g' g).
    { intros g' Hg'. destruct (Nat.eqb_spec (nth g' idx n) k) as [E'|N']; destruct (Nat.eqb_spec g' g) as [->|N2]; try reflexivity; [exfalso; apply N2, (H2 g' g Hg' Hg); [lia|congruence]|contradiction]. }
    rewrite (Sum_ext 3 _ (fun g' => (if Nat.eqb g' g then 1 else 0) * F k)); [rewrite (pick_one g (fun _ => F k) Hg); reflexivity|]. intros g' Hg'. rewrite U by exact Hg'. destruct (Nat.eqb g' g); ring.
Qed.
Lemma sr_set_at idx n phi g0 g : (g < 3)%nat -> (nth g idx n < n)%nat ->
  (forall g g', (g < 3)%nat -> (g' < 3)%nat -> (nth g idx n < n)%nat -> nth g idx n = nth g' idx n -> g = g') ->
  sr_set idx n phi g0 (nth g idx n) = phi g.
Proof.
  intros Hg L H. unfold sr_set. cbn [seq fold_left].
  assert (N : forall g', (g' < 3)%nat -> g' <> g -> Nat.eqb (nth g idx n) (nth g' idx n) = false) by (intros g' Hg' Ne; apply Nat.eqb_neq; intros E; apply Ne; symmetry; exact (H g g' Hg Hg' L E)).
  assert (S : forall (a : nat -> R) (b : bool) g', (g' < 3)%nat -> g' <> g -> (if b then set_at a (nth g' idx n) (phi g') else a) (nth g idx n) = a (nth g idx n)).
  { intros a b g' Hg' Ne. destruct b; [|reflexivity]. unfold set_at. rewrite N by assumption. reflexivity. }
  assert (E : forall a : nat -> R, (if Nat.ltb (nth g idx n) n then set_at a (nth g idx n) (phi g) else a) (nth g idx n) = phi g).
  { intros a. apply Nat.ltb_lt in L. rewrite L. unfold set_at. rewrite Nat.eqb_refl. reflexivity. }
  destruct g as [|[|[|]]]; try lia.
  - rewrite (S _ _ 2%nat), (S _ _ 1%nat) by lia. apply E.
  - rewrite (S _ _ 2%nat) by lia. apply E.
  - apply E.
Qed.

(* ---- Acceptance ---- *)
Lemma supported_chem (a b : list str) : M_Chem.contained str_eqb a b = true <-> forall x, In x a -> In x b.
Proof.
  unfold M_Chem.contained. rewrite forallb_forall. split; intros H x I.
  - specialize (H x I). apply existsb_exists in H as (y & Iy & E). apply str_eqb_eq in E. subst. exact Iy.
  - apply existsb_exists. exists x. split; [exact (H x I)|]. apply str_eqb_eq. reflexivity.
Qed.
Lemma supported_parse : exists a b c, mkChemicalFormula $"H2O" = Ok a /\ mkChemicalFormula $"CO2" = Ok b /\ mkChemicalFormula $"CH4" = Ok c /\
  equivalent a a = true /\ equivalent a b = false /\ equivalent a c = false /\ equivalent b a = false /\ equivalent b b = true /\ equivalent b c = false /\
  equivalent c a = false /\ equivalent c b = false /\ equivalent c c = true.
Proof.
  assert (E : match mkChemicalFormula $"H2O", mkChemicalFormula $"CO2", mkChemicalFormula $"CH4" with
    Ok a, Ok b, Ok c => (equivalent a a && negb (equivalent a b) && negb (equivalent a c)) && (negb (equivalent b a) && equivalent b b && negb (equivalent b c)) && (negb (equivalent c a) && negb (equivalent c b) && equivalent c c)
    | _, _, _ => false end = true) by (vm_compute; reflexivity).
  destruct (mkChemicalFormula $"H2O") as [a| |], (mkChemicalFormula $"CO2") as [b| |], (mkChemicalFormula $"CH4") as [c| |]; try discriminate. exists a, b, c.
  rewrite !andb_true_iff, !negb_true_iff in E. intuition.
Qed.
Lemma accepted l f : spycherReed l = Ok f -> (forall s, In s l -> In (sp_formula s) sr_supported) /\ exists idx, mapM (findFormula l) sr_supported = Ok idx /\ length idx = 3%nat /\ f = sr_fn idx (length l).
Proof.
  unfold spycherReed. destruct (M_Chem.contained str_eqb (map (fun s => cf_str (formula s)) l) sr_supported) eqn:E; [|discriminate]. cbn [negb].
  intros H. split.
  - intros s I. apply (proj1 (supported_chem _ _) E). apply (in_map (fun s => cf_str (formula s))) in I. exact I.
  - destruct supported_parse as (a & b & c & Ea & Eb & Ec & _). unfold sr_supported in H |- *. cbn [mapM] in H |- *. unfold findFormula in H |- *. rewrite Ea, Eb, Ec in H |- *. cbn [omap bind] in H |- *. injection H as <-. eexists. repeat split.
Qed.
Lemma found_ l idx : (forall s, In s l -> mkChemicalFormula (sp_formula s) = Ok (formula s)) -> (forall s, In s l -> In (sp_formula s) sr_supported) -> mapM (findFormula l) sr_supported = Ok idx -> idx = sr_where l.
Proof.
  intros HP HS H. destruct supported_parse as (a & b & c & Ea & Eb & Ec & Q). unfold sr_supported in H. cbn [mapM] in H. unfold findFormula in H. rewrite Ea, Eb, Ec in H. cbn [omap bind] in H. injection H as <-.
  unfold sr_where, findWithFormula, where_is. f_equal; [|f_equal; [|f_equal]]; apply indexfn_agree; intros s I; specialize (HP s I);
  destruct (HS s I) as [F|[F|[F|[]]]]; rewrite <- F in HP |- *; rewrite ?Ea, ?Eb, ?Ec in HP; injection HP as <-; intuition congruence.
Qed.
Lemma found l idx : distinct_gases l -> (forall s, In s l -> In (sp_formula s) sr_supported) -> mapM (findFormula l) sr_supported = Ok idx -> idx = sr_where l.
Proof. intros [HP _]. apply found_. exact HP. Qed.

(* ---- C107 ---- *)
Lemma computed_sr idx n get T P x p : computed (sr_fn idx n) get T P x p = match sr_fn idx n T P x p with Ok (q, _) => get q | _ => 0 end.
Proof. reflexivity. Qed.
Lemma sr_Gex idx n T P x p : computed (sr_fn idx n) Gex T P x p = Rgas * T * gred (sr_fractions idx n x) T P.
Proof. unfold computed, sr_fn, gred, Rgas. cbn. unfold universalGasConstant. ring. Qed.
Lemma sr_Vex idx n T P x p : computed (sr_fn idx n) Vex T P x p = (sr_Z T P (sr_fractions idx n x) - 1) * (Rgas * T / P).
Proof. unfold computed, sr_fn, Rgas. cbn zeta. cbn [Vex]. unfold universalGasConstant. ring. Qed.
Lemma sr_Hex idx n T P x p : computed (sr_fn idx n) Hex T P x p = - Rgas * T * T * gredT (sr_fractions idx n x) T P.
Proof. unfold computed, sr_fn, Rgas. cbn zeta. cbn [Hex]. unfold gredT, universalGasConstant. ring. Qed.
(* The excess properties come from one Gibbs energy, and it vanishes with the
   pressure. *)
Theorem C107_potential : forall l f T P x p, spycherReed l = Ok f -> 0 < T -> 0 < P ->
  (exists q e, f T P x p = Ok (q, e)) /\
  is_derive (fun P => computed f Gex T P x p) P (computed f Vex T P x p) /\
  filterlim (fun P => computed f Gex T P x p) (locally 0) (locally 0) /\
  is_derive (fun T => computed f Vex T P x p) T (computed f VexT T P x p) /\
  is_derive (fun P => computed f Vex T P x p) P (computed f VexP T P x p) /\
  is_derive (fun T => computed f Gex T P x p / T) T (- computed f Hex T P x p / T ^ 2) /\
  is_derive (fun T => computed f Hex T P x p) T (computed f Cpex T P x p) /\
  computed f Cpex T P x p - computed f Cvex T P x p + Rgas = - T * (computed f VexT T P x p + Rgas / P) ^ 2 / (computed f VexP T P x p - Rgas * T / P ^ 2).
Proof.
  intros l f T P x p Hf HT HP. apply accepted in Hf as (_ & idx & _ & _ & ->). set (n := length l). set (y := sr_fractions idx n x).
  split; [eexists _, _; reflexivity|]. split; [|split; [|split; [|split; [|split; [|split]]]]].
  - apply (is_derive_ext (fun P => Rgas * T * gred y T P)); [intros; symmetry; apply sr_Gex|]. eapply d_val; [apply d_mul; [apply d_const|apply d_gred_P]|]. rewrite sr_Vex. cbn beta. fold y. unfold sr_Z. cbn zeta. generalize (mix2 y (computeB T)) (mix3 y (computeC T)). intros. change Rgas with (Rgas : R). field. lra.
  - assert (C : continuous (fun P => Rgas * T * gred y T P) 0).
    { apply (ex_derive_continuous (fun P => Rgas * T * gred y T P)). eexists. apply d_mul; [apply d_const|apply d_gred_P]. }
    unfold continuous in C. replace (Rgas * T * gred y T 0) with 0 in C by (unfold gred; ring). apply (filterlim_ext (fun P => Rgas * T * gred y T P)); [intros; symmetry; apply sr_Gex|]. exact C.
  - apply (is_derive_ext (fun T => (sr_Z T P y - 1) * (Rgas * T / P))); [intros; symmetry; apply sr_Vex|]. eapply d_val.
    { apply d_mul; [apply d_sub; [apply d_Z_T; lra|apply d_const]|]. eapply d_val; [apply d_mul; [apply d_mul; [apply d_const|apply d_id]|apply d_const]|]. reflexivity. }
    unfold computed, sr_fn. cbn zeta. cbn [VexT]. fold n y. cbn beta. change universalGasConstant with Rgas. field. split; lra.
  - apply (is_derive_ext (fun P => (sr_Z T P y - 1) * (Rgas * T / P))); [intros; symmetry; apply sr_Vex|]. eapply d_val.
    { apply d_mul; [apply d_sub; [apply d_Z_P|apply d_const]|]. apply d_div; [apply d_const|apply d_id|lra]. }
    unfold computed, sr_fn. cbn zeta. cbn [VexP]. fold n y. cbn beta. change universalGasConstant with Rgas. field. lra.
  - assert (L : locally T (fun T => T <> 0)) by (apply (filter_imp (fun u => 0 < u)); [intros; lra|]; apply (open_gt 0); exact HT).
    apply (is_derive_ext_loc (fun T => Rgas * gred y T P)). { apply (filter_imp (fun u => u <> 0)); [|exact L]. intros u Hu. rewrite sr_Gex. fold y. match goal with |- ?l = ?r => change (@eq R l r) end. field. exact Hu. }
    eapply d_val; [apply d_mul; [apply d_const|apply d_gred_T; lra]|]. rewrite sr_Hex. fold y. unfold gredT. cbn beta. field. lra.
  - apply (is_derive_ext (fun T => - Rgas * T * T * gredT y T P)); [intros; symmetry; apply sr_Hex|]. eapply d_val.
    { apply d_mul; [apply d_mul; [apply d_mul; [apply d_const|apply d_id]|apply d_id]|apply d_gredT_T; lra]. }
    unfold computed, sr_fn. cbn zeta. cbn [Cpex]. fold n y. cbn beta. change universalGasConstant with Rgas. unfold gredT. field. lra.
  - unfold computed, sr_fn. cbn zeta. cbn [Cpex Cvex VexT VexP]. fold n y. change universalGasConstant with Rgas.
    replace (sr_ZT T P y * (Rgas * T / P) + sr_Z T P y * (Rgas * T / P / T) - Rgas * T / P / T + Rgas / P) with (sr_ZT T P y * (Rgas * T / P) + sr_Z T P y * (Rgas * T / P / T)) by (field; split; lra).
    replace (sr_ZP T P y * (Rgas * T / P) + sr_Z T P y * (- (Rgas * T / P) / P) - - (Rgas * T / P) / P - Rgas * T / P ^ 2) with (sr_ZP T P y * (Rgas * T / P) + sr_Z T P y * (- (Rgas * T / P) / P)) by (field; lra).
    generalize (sr_ZT T P y * (Rgas * T / P) + sr_Z T P y * (Rgas * T / P / T)) (sr_ZP T P y * (Rgas * T / P) + sr_Z T P y * (- (Rgas * T / P) / P)). intros vt vp.
    match goal with |- ?c - _ + _ = _ => generalize c end. intros c. unfold Rdiv. ring.
Qed.
Print Assumptions C107_potential.

Lemma fractions_of idx n m g : sr_fractions idx n (of_amounts n m) g = present idx n m g / Sum n m.
Proof. unfold sr_fractions, present, of_amounts. cbn zeta. destruct (Nat.ltb _ n); [reflexivity|]. unfold Rdiv. ring. Qed.
Lemma gred_ext y y' T P : (forall g, (g < 3)%nat -> y g = y' g) -> gred y T P = gred y' T P.
Proof.
  intros H. unfold gred. assert (E2 : mix2 y (computeB T) = mix2 y' (computeB T)) by (apply Sum_ext; intros; apply Sum_ext; intros; rewrite !H by assumption; reflexivity).
  assert (E3 : mix3 y (computeC T) = mix3 y' (computeC T)) by (apply Sum_ext; intros; apply Sum_ext; intros; apply Sum_ext; intros; rewrite !H by assumption; reflexivity).
  rewrite E2, E3. reflexivity.
Qed.
Lemma lnphi_ext y y' T P g : (forall g, (g < 3)%nat -> y g = y' g) -> sr_lnphi T P y g = sr_lnphi T P y' g.
Proof.
  intros H. unfold sr_lnphi, sr_Z. cbn zeta. assert (E2 : mix2 y (computeB T) = mix2 y' (computeB T)) by (apply Sum_ext; intros; apply Sum_ext; intros; rewrite !H by assumption; reflexivity).
  assert (E3 : mix3 y (computeC T) = mix3 y' (computeC T)) by (apply Sum_ext; intros; apply Sum_ext; intros; apply Sum_ext; intros; rewrite !H by assumption; reflexivity).
  rewrite E2, E3. f_equal. apply Sum_ext. intros k Hk. rewrite H by assumption. f_equal. apply Sum_ext. intros. rewrite H by assumption. reflexivity.
Qed.
(* The logarithm of each fugacity coefficient is the derivative of that energy
   with respect to the amount of the species. *)
Theorem C107_fugacity : forall l f T P m k p, spycherReed l = Ok f -> distinct_gases l -> 0 < T -> 0 < Sum (length l) m -> (k < length l)%nat ->
  is_derive (fun v => reduced_Gibbs f (length l) T P p (changed m k v)) (m k) (computed f (fun q => ln_g q k) T P (of_amounts (length l) m) p) /\
  computed f (fun q => ln_a q k) T P (of_amounts (length l) m) p = computed f (fun q => ln_g q k) T P (of_amounts (length l) m) p + ln (m k / Sum (length l) m) + ln (1e-5 * P).
Proof.
  intros l f T P m k p Hf HG HT HN Hk. apply accepted in Hf as (HS & idx & Hi & _ & ->). apply (found _ _ HG HS) in Hi. subst idx. destruct (located l HS (proj2 HG)) as [H1 H2]. set (n := length l) in *. set (idx := sr_where l) in *.
  split; [|reflexivity]. destruct (H1 k Hk) as (g & Hg & Eg).
  assert (ES : forall F, Sum n F = Sum 3 (present idx n F)) by (intros F; apply sum_present; assumption).
  assert (EC : forall v g', (g' < 3)%nat -> present idx n (changed m k v) g' = amount (present idx n m) g v g').
  { intros v g' Hg'. unfold present, changed, amount. cbn zeta. destruct (Nat.eqb_spec g' g) as [->|Ne].
    - rewrite Eg, Nat.eqb_refl. apply Nat.ltb_lt in Hk. rewrite Hk. reflexivity.
    - destruct (Nat.ltb (nth g' idx n) n); [|reflexivity]. destruct (Nat.eqb_spec (nth g' idx n) k) as [E|]; [|reflexivity]. exfalso. apply Ne. symmetry. apply (H2 g g' Hg Hg'); rewrite Eg; [exact Hk|symmetry; exact E]. }
  assert (EM : present idx n m g = m k) by (unfold present; cbn zeta; rewrite Eg; apply Nat.ltb_lt in Hk; rewrite Hk; reflexivity).
  apply (is_derive_ext (fun v => total_gred T P (amount (present idx n m) g v))).
  - intros v. unfold reduced_Gibbs, total_gred. rewrite sr_Gex, (ES (changed m k v)). rewrite (Sum_ext 3 (present idx n (changed m k v)) (amount (present idx n m) g v)) by (intros; apply EC; assumption).
    rewrite (gred_ext (sr_fractions idx n (of_amounts n (changed m k v))) (fun i => amount (present idx n m) g v i / Sum 3 (amount (present idx n m) g v))).
    + match goal with |- ?l = ?r => change (@eq R l r) end. field. split; [lra|]. unfold Rgas. lra.
    + intros g' Hg'. rewrite fractions_of, EC by exact Hg'. f_equal. rewrite ES. apply Sum_ext. intros; apply EC; assumption.
  - rewrite <- EM. eapply d_val; [apply d_total_gred; [exact Hg|rewrite <- ES; lra]|]. unfold computed, sr_fn. cbn zeta. cbn [ln_g]. rewrite <- Eg.
    rewrite (sr_set_at idx n _ _ g Hg); [|rewrite Eg; exact Hk|exact H2]. apply lnphi_ext. intros g' _. rewrite fractions_of, <- ES. reflexivity.
Qed.
Print Assumptions C107_fugacity.

(* The Gibbs-Duhem equation along every path of compositions. *)
Theorem C107_gibbs_duhem : forall l f T P p path path' t, spycherReed l = Ok f -> distinct_gases l -> composition_path (length l) path path' t ->
  GibbsDuhem f (length l) T P p path t.
Proof.
  intros l f T P p path path' t Hf HG HC. apply accepted in Hf as (HS & idx & Hi & _ & ->). apply (found _ _ HG HS) in Hi. subst idx. destruct (located l HS (proj2 HG)) as [H1 H2]. set (n := length l) in *. set (idx := sr_where l) in *.
  assert (ES : forall F, Sum n F = Sum 3 (present idx n F)) by (intros F; apply sum_present; assumption).
  pose proof (sum_constant _ _ _ _ HC) as SC. destruct HC as (Hp & HD & HL).
  set (Y := fun s => sr_fractions idx n (path s)). set (Y' := present idx n path').
  assert (DY : forall g, (g < 3)%nat -> is_derive (fun s => Y s g) t (Y' g)).
  { intros g Hg. unfold Y, Y', sr_fractions, present. cbn zeta. destruct (Nat.ltb_spec (nth g idx n) n) as [L|L]; [apply HD; exact L|apply d_const]. }
  set (dphi := fun g => - (2 * Sum 3 (fun i => Y' i * Sum 3 (fun k => Y t k * computeB T i k)) * (1e-5 * P) + 3 * Sum 3 (fun i => Y' i * Sum 3 (fun k => Sum 3 (fun l => Y t k * Y t l * computeC T i k l))) * (1e-5 * P) * (1e-5 * P))
     + Sum 3 (fun k => 2 * Y' k * computeB T g k * (1e-5 * P) + Sum 3 (fun l => 1.5 * (Y' k * Y t l + Y t k * Y' l) * computeC T g k l * (1e-5 * P) * (1e-5 * P)))).
  exists (fun s i => sr_set idx n (sr_lnphi T P (Y s)) (ln_g (fst p)) i + ln (path s i) + ln (1e-5 * P)), (fun i => sr_set idx n dphi (fun _ => 0) i + path' i / path t i). split; [|split].
  - apply filter_forall. intros s. eexists _, _. split; [reflexivity|]. intros i. reflexivity.
  - intros i Hi. destruct (H1 i Hi) as (g & Hg & Eg). rewrite <- Eg in Hi |- *. eapply d_val.
    { apply d_add; [|apply d_const]. apply d_add; [|apply d_ln; [apply HD; exact Hi|apply Hp; exact Hi]].
      apply (is_derive_ext (fun s => sr_lnphi T P (Y s) g)); [intros s; symmetry; apply sr_set_at; assumption|]. apply (d_lnphi T P Y Y' t g Hg DY). }
    cbn beta. rewrite (sr_set_at idx n _ _ g Hg Hi H2). unfold dphi. match goal with |- ?l = ?r => change (@eq R l r) end. rewrite Rplus_0_r. unfold Rdiv. f_equal. ring.
  - rewrite (Sum_ext n _ (fun i => path t i * sr_set idx n dphi (fun _ => 0) i + path' i)).
    2: { intros i Hi. specialize (Hp i Hi). cbn beta. field. lra. }
    rewrite Sum_add, SC, Rplus_0_r, ES. rewrite (Sum_ext 3 _ (fun g => Y t g * dphi g)).
    + apply duhem_gases. apply locally_singleton in HL. rewrite <- HL, ES. reflexivity.
    + intros g Hg. unfold present. cbn zeta. change (Y t g) with (if Nat.ltb (nth g idx n) n then path t (nth g idx n) else 0). destruct (Nat.ltb_spec (nth g idx n) n) as [L|L].
      * rewrite (sr_set_at idx n _ _ g Hg L H2). reflexivity.
      * ring.
Qed.
Print Assumptions C107_gibbs_duhem.

(* The phases accepted are those of water, carbon dioxide and methane. *)
Theorem C107_accepts : forall l, (exists f, spycherReed l = Ok f) <-> forall s, In s l -> sp_formula s = $"H2O" \/ sp_formula s = $"CO2" \/ sp_formula s = $"CH4".
Proof.
  intros l. split.
  - intros (f & H) s I. apply accepted in H as (HS & _). specialize (HS s I) as [E|[E|[E|[]]]]; auto.
  - intros H. unfold spycherReed. assert (E : M_Chem.contained str_eqb (map (fun s => cf_str (formula s)) l) sr_supported = true).
    { apply supported_chem. intros x I. apply in_map_iff in I as (s & <- & I). cbn [formula cf_str]. unfold sr_supported. destruct (H s I) as [->|[->| ->]]; cbn [In]; auto. }
    rewrite E. cbn [negb]. destruct supported_parse as (a & b & c & Ea & Eb & Ec & _). unfold sr_supported. cbn [mapM]. unfold findFormula. rewrite Ea, Eb, Ec. cbn [omap bind]. eexists. reflexivity.
Qed.
Print Assumptions C107_accepts.
(* Of several species with one formula only the first is given a fugacity
   coefficient; the others keep what was stored before. *)
Theorem C107_repeated : forall l f T P x p i j s s', spycherReed l = Ok f -> (forall s, In s l -> mkChemicalFormula (sp_formula s) = Ok (formula s)) ->
  (i < j)%nat -> nth_error l i = Some s -> nth_error l j = Some s' -> sp_formula s = sp_formula s' ->
  computed f (fun q => ln_g q j) T P x p = ln_g (fst p) j.
Proof.
  intros l f T P x p i j s s' Hf HP Hij Hi Hj E. apply accepted in Hf as (HS & idx & Hx & _ & ->). apply (found_ _ _ HP HS) in Hx. subst idx.
  assert (N : forall g, (g < 3)%nat -> (nth g (sr_where l) (length l) < length l)%nat -> nth g (sr_where l) (length l) <> j).
  { assert (Q : forall fm, (where_is l fm < length l)%nat -> where_is l fm <> j).
    { intros fm L EJ. destruct (where_found l fm L) as (t & Ht & Et). rewrite EJ, Hj in Ht. injection Ht as <-.
      unfold where_is in EJ. destruct (indexfn_split l (fun s => str_eqb (sp_formula s) fm)) as [(a & y & b & El & _ & Hn & Ei)|[_ Ei]]; [|unfold where_is in L; lia].
      assert (In s a). { rewrite El, nth_error_app1 in Hi by lia. eapply nth_error_In. exact Hi. } specialize (Hn s H). cbn beta in Hn. rewrite E, Et in Hn. assert (str_eqb fm fm = true) by (apply str_eqb_eq; reflexivity). congruence. }
    intros g Hg L. destruct g as [|[|[|]]]; try lia; apply Q; exact L. }
  unfold computed, sr_fn. cbn zeta. cbn [ln_g]. unfold sr_set. cbn [seq fold_left].
  assert (S : forall (a : nat -> R) g v, (g < 3)%nat -> (if Nat.ltb (nth g (sr_where l) (length l)) (length l) then set_at a (nth g (sr_where l) (length l)) v else a) j = a j).
  { intros a g v Hg. specialize (N g Hg). destruct (Nat.ltb_spec (nth g (sr_where l) (length l)) (length l)) as [L|L]; [|reflexivity]. unfold set_at. destruct (Nat.eqb_spec j (nth g (sr_where l) (length l))) as [EJ|]; [|reflexivity]. exfalso. apply (N L). symmetry. exact EJ. }
  rewrite !S by lia. reflexivity.
Qed.
Print Assumptions C107_repeated.
Definition gas (f : str) (els : list (str * Q)) : Species := mkSpecies f f f (map (fun e => (mkElem (fst e) (fst e) 0%Q [], snd e)) els) 0%Q Gas [].
Definition gCO2 : Species := gas $"CO2" [($"C", 1%Q); ($"O", 2%Q)].
Definition gH2O : Species := gas $"H2O" [($"H", 2%Q); ($"O", 1%Q)].
Definition gCH4 : Species := gas $"CH4" [($"C", 1%Q); ($"H", 4%Q)].
Lemma gases_distinct : distinct_gases [gCO2; gH2O; gCH4].
Proof.
  split.
  - intros s [<-|[<-|[<-|[]]]]; vm_compute; reflexivity.
  - cbn [map gCO2 gH2O gCH4 gas sp_formula]. repeat constructor; cbn [In]; intuition discriminate.
Qed.
Example C107_nonvacuous : exists f, spycherReed [gCO2; gH2O; gCH4] = Ok f /\ distinct_gases [gCO2; gH2O; gCH4] /\ 0 < Sum 3 (fun _ => 1) /\
  composition_path 3 (fun s i => match i with O => / 3 + s | S O => / 3 - s | _ => / 3 end) (fun i => match i with O => 1 | S O => -1 | _ => 0 end) 0 /\
  exists f', spycherReed [gCO2; gH2O; gCO2] = Ok f'.
Proof.
  assert (A : forall a b c, In a [gCO2; gH2O; gCH4] -> In b [gCO2; gH2O; gCH4] -> In c [gCO2; gH2O; gCH4] -> exists f, spycherReed [a; b; c] = Ok f).
  { intros a b c Ha Hb Hc. apply C107_accepts. assert (K : forall s, In s [gCO2; gH2O; gCH4] -> sp_formula s = $"H2O" \/ sp_formula s = $"CO2" \/ sp_formula s = $"CH4") by (intros s [<-|[<-|[<-|[]]]]; auto). intros s [<-|[<-|[<-|[]]]]; apply K; assumption. }
  destruct (A gCO2 gH2O gCH4) as (f & E); [cbn; auto|cbn; auto|cbn; auto|]. exists f. split; [exact E|]. split; [exact gases_distinct|]. split; [cbn; lra|]. split; [|apply A; cbn; auto].
  split; [|split].
  - intros i _. destruct i as [|[|]]; lra.
  - intros i _. destruct i as [|[|]]; cbn; auto_derive; auto; ring.
  - apply filter_forall. intros s. cbn. field.
Qed.
