(* C123: databases in the format of SUPCRT. *)
From Coq Require Import Lia.
From Verif Require Import Base M_Strings M_Formula M_Chem M_Algorithms M_System S_Strings P_Strings S_System P_System M_Registry M_Supcrt S_Supcrt.

(* ---- Texts ---- *)
Fixpoint text_at (o : option xml) (p : list str) : option str := match p with [] => text o | c :: p' => text_at (child o c) p' end.
Lemma find_first c l n : find (fun x => str_eqb (x_name x) c) l = Some n <-> First c l n.
Proof.
  induction l as [|x l IH]; cbn [find]; [split; [discriminate|intros H; inversion H]|].
  destruct (str_eqb_spec (x_name x) c) as [E|E].
  - split; [intros H; injection H as <-; apply first_here; exact E|intros H; inversion H; subst; [reflexivity|contradiction]].
  - rewrite IH. split; [intros H; apply first_later; assumption|intros H; inversion H; subst; [contradiction|assumption]].
Qed.
Lemma text_at_none p : text_at None p = None.
Proof. induction p as [|c p IH]; [reflexivity|exact IH]. Qed.
Lemma text_at_spec p : forall n t, text_at (Some n) p = Some t <-> TextAt n p t.
Proof.
  induction p as [|c p IH]; intros [a u l] t; cbn [text_at].
  - cbn [text]. split; [intros ->; constructor|intros H; inversion H; reflexivity].
  - cbn [child]. destruct (find _ l) as [m|] eqn:E.
    + rewrite IH. split; [intros H; apply text_below with m; [apply find_first; exact E|exact H]|].
      intros H. inversion H as [|? ? ? ? m' ? ? F T]; subst. apply find_first in F. rewrite E in F. injection F as ->. exact T.
    + rewrite text_at_none. split; [discriminate|]. intros H. inversion H as [|? ? ? ? m' ? ? F T]; subst. apply find_first in F. congruence.
Qed.
Lemma text_at_absent p n : text_at (Some n) p = None <-> forall t, ~ TextAt n p t.
Proof.
  split; [intros E t H; apply text_at_spec in H; congruence|]. intros H. destruct (text_at (Some n) p) as [t|] eqn:E; [|reflexivity]. destruct (H t). apply text_at_spec. exact E.
Qed.

(* ---- Compositions ---- *)
Lemma composition_tokens e l : Composition e l -> Tokens $"()" e (flat_map (fun x => [fst x; snd x]) l).
Proof.
  assert (W : forall w, word w -> w <> [] /\ none_in $"()" w).
  { intros w (H1 & H2 & H3). split; [exact H1|]. intros c I [<-|[<-|[]]]; auto. }
  induction 1 as [|s c t l Hs Hc H IH]; [apply Tokens_nil; intros ? []|]. cbn [flat_map fst snd app].
  apply W in Hs, Hc. destruct Hs as [S1 S2], Hc as [C1 C2].
  apply (Tokens_cons $"()" [] s ($"(" ++ c ++ $")" ++ t)); auto; [intros ? []|intros d r E; injection E as <- _; left; reflexivity|].
  apply (Tokens_cons $"()" $"(" c ($")" ++ t)); auto; [intros d [<-|[]]; left; reflexivity|intros d r E; injection E as <- _; right; left; reflexivity|].
  assert (A : forall ds x ws, all_in $"()" ds -> Tokens $"()" x ws -> Tokens $"()" (ds ++ x) ws).
  { intros ds x ws Hd Ht. destruct Ht as [es He|es w r ws' He H1 H2 H3 H4].
    - apply Tokens_nil. intros d I. apply in_app_iff in I as [I|I]; auto.
    - rewrite app_assoc. apply Tokens_cons; auto. intros d I. apply in_app_iff in I as [I|I]; auto. }
  apply A; [intros d [<-|[]]; right; left; reflexivity|exact IH].
Qed.
Section Reader.
Variable number : str -> Q.
Variable integer : str -> Z.
Variable elements : list Element.
Lemma symbols_flat l : symbols_of number (flat_map (fun x => [fst x; snd x]) l) = Ok (map (fun x => (fst x, number (snd x))) l).
Proof. induction l as [|[s c] l IH]; [reflexivity|]. cbn [flat_map fst snd app symbols_of map]. rewrite IH. reflexivity. Qed.
Lemma as_text_at n k d t : TextAt n [k] t -> as_text (Some n) k d = t.
Proof. intros H. apply text_at_spec in H. unfold as_text. cbn [text_at] in H. rewrite H. reflexivity. Qed.
Lemma parse_elements n e l : TextAt n [$"Elements"] e -> Composition e l -> parseElements number n = Ok (map (fun x => (fst x, number (snd x))) l).
Proof.
  intros HT HC. unfold parseElements. rewrite (as_text_at _ _ _ _ HT). rewrite (proj2 (split_correct _ _ _) (composition_tokens _ _ HC)). apply symbols_flat.
Qed.
Lemma composition_known pairs : (forall x, In x pairs -> In (fst x) (map el_symbol elements)) ->
  exists es, composition elements pairs = Ok es /\ map (fun x => (el_symbol (fst x), snd x)) es = pairs /\ forall x, In x es -> In (fst x) elements.
Proof.
  unfold composition. induction pairs as [|[s c] pairs IH]; intros H; cbn [mapM]; [exists []; repeat split; intros ? []|].
  destruct IH as (es & E & Em & EI); [intros x I; apply H; right; exact I|]. cbn [fst snd].
  destruct (find (fun e => str_eqb (el_symbol e) s) elements) as [e|] eqn:F.
  - apply find_some in F as [I F]. apply str_eqb_eq in F. cbn [bind]. rewrite E. cbn [bind]. exists ((e, c) :: es). split; [reflexivity|]. split.
    + cbn [map fst snd]. rewrite F, Em. reflexivity.
    + intros x [<-|Ix]; [exact I|exact (EI x Ix)].
  - exfalso. specialize (H (s, c) (or_introl eq_refl)). cbn [fst] in H. apply in_map_iff in H as (e & E1 & E2).
    pose proof (find_none _ _ F e E2) as N. cbn beta in N. rewrite E1, str_eqb_refl in N. discriminate N.
Qed.

(* ---- Parameters ---- *)
Lemma says_double n k d v : Says number n (HKF k) v -> as_double number (child (child (Some n) $"Thermo") $"HKF") k d = v.
Proof. intros (t & H & ->). apply text_at_spec in H. cbn [text_at HKF] in H. unfold as_double. rewrite H. reflexivity. Qed.
Lemma says_range n i k d v : Says number n (InRange i k) v -> as_double number (child (child (child (Some n) $"Thermo") $"HKF") ($"TemperatureRange" ++ i)) k d = v.
Proof. intros (t & H & ->). apply text_at_spec in H. cbn [text_at InRange] in H. unfold as_double. rewrite H. reflexivity. Qed.
Lemma says_range_or n i k d v : SaysOr number n (InRange i k) d v -> as_double number (child (child (child (Some n) $"Thermo") $"HKF") ($"TemperatureRange" ++ i)) k d = v.
Proof.
  intros [H|[H ->]]; [exact (says_range _ _ _ _ _ H)|]. apply text_at_absent in H. cbn [text_at InRange] in H. unfold as_double. rewrite H. reflexivity.
Qed.
Lemma as_double_charge n v : SaysOr number n [$"Charge"] 0%Q v <-> v = as_double number (Some n) $"Charge" 0%Q.
Proof.
  unfold SaysOr, Says, as_double. change (text (child (Some n) $"Charge")) with (text_at (Some n) [$"Charge"]).
  destruct (text_at (Some n) [$"Charge"]) as [t|] eqn:E.
  - split.
    + intros [(u & H & ->)|[H _]]; [apply text_at_spec in H; congruence|]. apply text_at_spec in E. destruct (H t E).
    + intros ->. left. exists t. split; [apply text_at_spec; exact E|reflexivity].
  - split.
    + intros [(u & H & ->)|[_ ->]]; [apply text_at_spec in H; congruence|reflexivity].
    + intros ->. right. split; [apply text_at_absent; exact E|reflexivity].
Qed.
Lemma list_ext {A} (l l' : list A) : length l = length l' -> (forall i v, nth_error l i = Some v -> nth_error l' i = Some v) -> l = l'.
Proof.
  revert l'. induction l as [|x l IH]; intros [|y l'] HL H; try discriminate; [reflexivity|].
  f_equal; [specialize (H 0 x eq_refl); injection H as ->; reflexivity|]. apply IH; [injection HL; auto|]. intros i v E. exact (H (S i) v E).
Qed.
Lemma map_seq_nth {A} (f : nat -> A) n i v : nth_error (map f (seq 0 n)) i = Some v -> v = f i.
Proof.
  intros H. assert (Hi : i < n). { apply nth_error_Some_lt in H || idtac. assert (L : i < length (map f (seq 0 n))) by (apply nth_error_Some; congruence). rewrite map_length, seq_length in L. exact L. }
  rewrite (map_nth_error f i (seq 0 n) (d := i)) in H; [congruence|]. rewrite (nth_error_nth' _ 0) by (rewrite seq_length; exact Hi). rewrite seq_nth by exact Hi. reflexivity.
Qed.
Lemma ranges_are n k d l nt : length l = nt -> Ranges number n k l -> map (fun i => as_double number (child (child (child (Some n) $"Thermo") $"HKF") (range i)) k d) (seq 0 nt) = l.
Proof.
  intros HL H. symmetry. apply list_ext; [rewrite map_length, seq_length; exact HL|]. intros i v E. pose proof (says_range _ _ _ d _ (H i v E)) as S.
  assert (Hi : i < nt) by (rewrite <- HL; apply nth_error_Some; congruence).
  rewrite (map_nth_error _ i (seq 0 nt) (d := i)); [unfold range; rewrite S; reflexivity|]. rewrite (nth_error_nth' _ 0) by (rewrite seq_length; exact Hi). rewrite seq_nth by exact Hi. reflexivity.
Qed.
Lemma ranges_or_are n k l nt : length l = nt -> RangesOr number n k l -> map (fun i => as_double number (child (child (child (Some n) $"Thermo") $"HKF") (range i)) k 0%Q) (seq 0 nt) = l.
Proof.
  intros HL H. symmetry. apply list_ext; [rewrite map_length, seq_length; exact HL|]. intros i v E. pose proof (says_range_or _ _ _ _ _ (H i v E)) as S.
  assert (Hi : i < nt) by (rewrite <- HL; apply nth_error_Some; congruence).
  rewrite (map_nth_error _ i (seq 0 nt) (d := i)); [unfold range; rewrite S; reflexivity|]. rewrite (nth_error_nth' _ 0) by (rewrite seq_length; exact Hi). rewrite seq_nth by exact Hi. reflexivity.
Qed.
Lemma parse_mineral n (p : Mineral Q) : Parameters number integer n MineralKind (MineralOf p) -> parseParamsMaierKellyHKF number integer n = Ok p.
Proof.
  intros H. inversion H as [| | |p' t H1 H2 H3 H4 La Lb Lc L1 L2 L3 L4 H0 HS EK EP]; subst. unfold parseParamsMaierKellyHKF.
  assert (Ez : as_int integer (child (child (Some n) $"Thermo") $"HKF") $"NumPhaseTrans" 999999%Z = Z.of_nat (mn_nptrans p)).
  { apply text_at_spec in H3. cbn [text_at HKF] in H3. unfold as_int. rewrite H3. exact H4. }
  rewrite Ez. destruct (Z.ltb_spec (Z.of_nat (mn_nptrans p)) 0) as [C|_]; [lia|]. rewrite Nat2Z.id.
  assert (HD : forall k f, In (k, f) [($"Gf", mn_Gf); ($"Hf", mn_Hf); ($"Sr", mn_Sr); ($"Vr", mn_Vr); ($"Tmax", mn_Tmax)] -> as_double number (child (child (Some n) $"Thermo") $"HKF") k missing = f p).
  { intros k f I. apply says_double, H2. exact I. }
  rewrite (as_text_at _ _ _ _ H1).
  rewrite (HD $"Gf" mn_Gf), (HD $"Hf" mn_Hf), (HD $"Sr" mn_Sr), (HD $"Vr" mn_Vr), (HD $"Tmax" mn_Tmax) by (cbn [In]; tauto).
  destruct (Nat.eqb_spec (mn_nptrans p) 0) as [Z|Z].
  - destruct (H0 Z) as (a & b & c & Ea & Eb & Ec & Sa & Sb & Sc). rewrite (says_double _ _ _ _ Sa), (says_double _ _ _ _ Sb), (says_double _ _ _ _ Sc), Z. cbn [seq map].
    rewrite Z in L1, L2, L3, L4. destruct p as [nm Gf Hf Sr Vr nt la lb lc lt lh lv lp Tm]; cbn in *.
    destruct lt; [|discriminate]. destruct lh; [|discriminate]. destruct lv; [|discriminate]. destruct lp; [|discriminate]. subst. reflexivity.
  - destruct (HS Z) as (Ra & Rb & Rc & Rt & Rh & Rv & Rp).
    rewrite (ranges_are n $"a" missing _ _ La Ra), (ranges_are n $"b" missing _ _ Lb Rb), (ranges_are n $"c" missing _ _ Lc Rc), (ranges_are n $"Ttr" missing _ _ L1 Rt),
      (ranges_or_are n $"Htr" _ _ L2 Rh), (ranges_or_are n $"Vtr" _ _ L3 Rv), (ranges_or_are n $"dPdTtr" _ _ L4 Rp). destruct p; reflexivity.
Qed.
Lemma parse_params n k p : KindOf n k -> Parameters number integer n k p -> parseParams number integer n = Ok p /\ parseState n = state_of k.
Proof.
  intros HK HP. unfold parseParams, parseState, as_lowercase_text.
  destruct HK as [t Ht I Hf|t f Ht I Hf Nf|t Ht I|t Ht I]; rewrite (as_text_at _ _ _ _ Ht); destruct I as [<-|[<-|[]]];
    inversion HP as [|p' HN HC HA|p' HN HA|p' ? HN HA]; subst; try rewrite (as_text_at _ _ _ _ Hf).
  1,2: split; reflexivity.
  1,2: replace (str_eqb f $"H2O") with false by (symmetry; apply str_eqb_neq; exact Nf); split; [|reflexivity];
    change (str_eqb (lowercase $"Aqueous") $"aqueous") with true; change (str_eqb (lowercase $"aqueous") $"aqueous") with true; cbn [andb]; cbv iota;
    unfold parseParamsAqueousSoluteHKF; rewrite (as_text_at _ _ _ _ HN); do 2 f_equal;
    destruct HC as (u & Hu & Eu); apply text_at_spec in Hu; cbn [text_at] in Hu;
    unfold as_double at 1; rewrite Hu, <- Eu;
    rewrite (says_double n $"Gf" missing (so_Gf p')), (says_double n $"Hf" missing (so_Hf p')), (says_double n $"Sr" missing (so_Sr p')), (says_double n $"a1" missing (so_a1 p')),
      (says_double n $"a2" missing (so_a2 p')), (says_double n $"a3" missing (so_a3 p')), (says_double n $"a4" missing (so_a4 p')), (says_double n $"c1" missing (so_c1 p')),
      (says_double n $"c2" missing (so_c2 p')), (says_double n $"wref" missing (so_wref p')) by (apply HA; cbn [In]; tauto); destruct p'; reflexivity.
  1,2: split; [|reflexivity]; change (str_eqb (lowercase $"Gaseous") $"aqueous") with false; change (str_eqb (lowercase $"gaseous") $"aqueous") with false;
    change (str_eqb (lowercase $"Gaseous") $"gaseous") with true; change (str_eqb (lowercase $"gaseous") $"gaseous") with true; cbn [andb]; cbv iota;
    unfold parseParamsMaierKelly; rewrite (as_text_at _ _ _ _ HN);
    rewrite (says_double n $"Gf" missing (ga_Gf p')), (says_double n $"Hf" missing (ga_Hf p')), (says_double n $"Sr" missing (ga_Sr p')), (says_double n $"a" missing (ga_a p')),
      (says_double n $"b" missing (ga_b p')), (says_double n $"c" missing (ga_c p')), (says_double n $"Tmax" missing (ga_Tmax p')) by (apply HA; cbn [In]; tauto); destruct p'; reflexivity.
  1,2: split; [|reflexivity]; change (str_eqb (lowercase $"Mineral") $"aqueous") with false; change (str_eqb (lowercase $"mineral") $"aqueous") with false;
    change (str_eqb (lowercase $"Mineral") $"gaseous") with false; change (str_eqb (lowercase $"mineral") $"gaseous") with false;
    change (str_eqb (lowercase $"Mineral") $"mineral") with true; change (str_eqb (lowercase $"mineral") $"mineral") with true; cbn [andb]; cbv iota;
    rewrite (parse_mineral n p' HP); reflexivity.
Qed.
End Reader.
Section Databases.
Variable number : str -> Q.
Variable integer : str -> Z.
Variable elements : list Element.
Lemma parse_species n : CompleteNode number integer elements n ->
  exists s p, parseSpecies number integer elements n = Ok (s, p) /\ Described number integer n s p /\ (forall x, In x (sp_elements s) -> In (fst x) elements) /\ sp_state s <> Undefined.
Proof.
  intros (s & p & (k & e & l & HK & HN & HF & HE & HC & HM & HQ & HS & HP) & Kn & NE).
  unfold parseSpecies. rewrite (parse_elements number n e l HE HC). cbn [bind]. rewrite <- HM.
  destruct (composition_known elements (map (fun x => (el_symbol (fst x), snd x)) (sp_elements s))) as (es & -> & Em & EI).
  { intros x I. apply in_map_iff in I as (y & <- & I). cbn [fst]. apply Kn. exact I. }
  destruct (parse_params number integer n k p HK HP) as [-> ->]. cbn [bind]. do 2 eexists. split; [reflexivity|]. split; [|split].
  - exists k, e, l. rewrite (as_text_at _ _ _ _ HN), (as_text_at _ _ _ _ HF).
    assert (EN : forall a b c d f g, name (mkSpecies (name s) a b c d f g) = name s) by (intros; unfold name at 1; cbn [sp_name]; destruct (name s); [contradiction|reflexivity]).
    rewrite EN. cbn [sp_formula sp_elements sp_charge sp_state]. rewrite Em.
    repeat (split; [assumption|]). split; [apply as_double_charge; reflexivity|]. split; [reflexivity|exact HP].
  - exact EI.
  - cbn [sp_state]. destruct k; discriminate.
Qed.
Lemma add_all ns : forall db ps, Forall (CompleteNode number integer elements) ns ->
  (forall i n t, nth_error ns i = Some n -> TextAt n [$"Name"] t -> ~ In t (db_names db)) -> DistinctNames ns ->
  exists ss qs db', addAll number integer elements (db, ps) ns = Ok (db', ps ++ qs) /\ db_species db' = db_species db ++ ss /\
    Together (fun n s p => Described number integer n s p /\ forall x, In x (sp_elements s) -> In (fst x) elements) ns ss qs.
Proof.
  induction ns as [|n ns IH]; intros db ps HF HN HD.
  - exists [], [], db. cbn [addAll]. rewrite !app_nil_r. repeat split. constructor.
  - inversion HF as [|? ? Hn HF']; subst. destruct (parse_species n Hn) as (s & p & E & D & EI & U). cbn [addAll]. unfold addParsed. rewrite E. cbn [bind fst snd].
    destruct (addSpecies_total db s U) as (db1 & E1). rewrite E1. cbn [omap bind].
    pose proof D as (k0 & e0 & l0 & _ & TN & _).
    destruct (addSpecies_spec db s db1 E1) as (k & s' & S1 & _ & S2 & S3 & _ & S4 & S5 & (b & _ & _ & S6 & _) & _).
    assert (k = 0) as ->. { destruct k; [reflexivity|]. exfalso. specialize (S4 0 ltac:(lia)). unfold bangs in S4. cbn [repeat] in S4. rewrite app_nil_r in S4. exact (HN 0 n (name s) eq_refl TN S4). }
    assert (EN : name s' = name s) by (rewrite S3; unfold bangs; cbn [repeat]; apply app_nil_r).
    destruct (IH db1 (ps ++ [p])) as (ss & qs & db' & A1 & A2 & A3).
    + exact HF'.
    + intros i m t Em Tm I. rewrite S2, EN in I. destruct I as [<-|I].
      * discriminate (HD 0 (S i) n m (name s) eq_refl Em TN Tm).
      * exact (HN (S i) m t Em Tm I).
    + intros i j m m' t Ei Ej Ti Tj. specialize (HD (S i) (S j) m m' t Ei Ej Ti Tj). injection HD. auto.
    + exists (s' :: ss), (p :: qs), db'. rewrite A1, A2, S1, <- !app_assoc. repeat split. constructor; [|exact A3].
      destruct S5 as (K1 & K2 & K3 & K4 & K5). cbn [Nat.eqb] in S6.
      assert (K6 : sp_state s' = sp_state s).
      { unfold aggregateState in S6. destruct (sp_state s), (sp_state s'); try reflexivity; try contradiction; cbn in S6; discriminate S6. }
      split.
      * destruct D as (k & e & l & D1 & D2 & D3 & D4 & D5 & D6 & D7 & D8 & D9). exists k, e, l. rewrite EN, K1, K3, K4, K6. repeat (split; [assumption|]). exact D9.
      * rewrite K3. exact EI.
Qed.
Lemma selected_filter c l r : Selected c l r -> List.filter (fun x => str_eqb (x_name x) c) l = r.
Proof.
  induction 1 as [|n l r E _ IH|n l r E _ IH]; [reflexivity| |]; cbn [List.filter].
  - apply str_eqb_eq in E. rewrite E, IH. reflexivity.
  - apply str_eqb_neq in E. rewrite E. exact IH.
Qed.
End Databases.

(* C123, full statement: the species of a document in the order of the document, each
   as the document describes it; a document that does not say everything is refused. *)
Definition C123_statement : Prop :=
  forall number integer elements doc ns, SpeciesOf doc ns ->
    (forall db ps, parseDatabase number integer elements doc = Ok (db, ps) -> Together (fun n s p => Described number integer n s p) ns (db_species db) ps) /\
    parseDatabase number integer elements doc <> UB.
(* For documents that say everything, with different names. *)
Theorem C123_partial : forall number integer elements doc ns, SpeciesOf doc ns ->
  Forall (CompleteNode number integer elements) ns -> DistinctNames ns ->
  exists db ps, parseDatabase number integer elements doc = Ok (db, ps) /\
    Together (fun n s p => Described number integer n s p /\ forall x, In x (sp_elements s) -> In (fst x) elements) ns (db_species db) ps.
Proof.
  intros number integer elements doc ns HS HC HD. destruct HS as [a t l b u m ns F S]. unfold parseDatabase. apply find_first in F. cbn [child]. rewrite F. cbn [children].
  rewrite (selected_filter _ _ _ S). destruct (add_all number integer elements ns emptyDB [] HC (fun i n t _ _ I => I) HD) as (ss & qs & db & A1 & A2 & A3).
  exists db, qs. split; [exact A1|]. rewrite A2. exact A3.
Qed.
Print Assumptions C123_partial.
Definition leaf (n t : str) : xml := Elt n (Some t) [].
Definition empty (n : str) : xml := Elt n None [].
Definition document (l : list xml) : xml := Elt [] None [Elt $"Database" None l].
(* Quartz and Na+ of supcrt98.xml (lines 4651-4684 and 10810-10833). *)
Definition quartz : xml := Elt $"Species" None [leaf $"Name" $"Quartz"; leaf $"Formula" $"SiO2"; leaf $"Elements" $"Si(1)O(2)"; leaf $"Type" $"Mineral";
  Elt $"Thermo" None [Elt $"HKF" None [leaf $"Gf" $"-204646.0"; leaf $"Hf" $"-217650.0"; leaf $"Sr" $"9.88"; leaf $"Vr" $"22.688"; leaf $"NumPhaseTrans" $"1"; leaf $"Tmax" $"2000.0";
    Elt $"TemperatureRange0" None [leaf $"a" $"11.22"; leaf $"b" $"0.0082"; leaf $"c" $"-270000.0"; leaf $"Ttr" $"848.0"; leaf $"Htr" $"290.0"; leaf $"Vtr" $"0.372"; leaf $"dPdTtr" $"38.5"];
    Elt $"TemperatureRange1" None [leaf $"a" $"14.41"; leaf $"b" $"0.00194"; leaf $"c" $"0.0"]]]].
Definition sodium : xml := Elt $"Species" None [leaf $"Name" $"Na+"; leaf $"Formula" $"Na+"; leaf $"Elements" $"Na(1)"; leaf $"Type" $"Aqueous"; leaf $"Charge" $"1";
  Elt $"Thermo" None [Elt $"HKF" None [leaf $"Gf" $"-62591.0"; leaf $"Hf" $"-57433.0"; leaf $"Sr" $"13.96"; leaf $"a1" $"0.1839"; leaf $"a2" $"-228.5"; leaf $"a3" $"3.256"; leaf $"a4" $"-27260.0";
    leaf $"c1" $"18.18"; leaf $"c2" $"-29810.0"; leaf $"wref" $"33060.0"]]].
Lemma text_of n p t : text_at (Some n) p = Some t -> TextAt n p t.
Proof. apply text_at_spec. Qed.
Lemma says_of number n p v t : text_at (Some n) p = Some t -> v = number t -> Says number n p v.
Proof. intros H ->. exists t. split; [apply text_at_spec; exact H|reflexivity]. Qed.
Lemma known_symbol s : existsb (str_eqb s) (map el_symbol default_elements) = true -> In s (map el_symbol default_elements).
Proof. intros H. apply existsb_exists in H as (x & I & E). apply str_eqb_eq in E. subst. exact I. Qed.
Lemma word_of w : w <> [] -> forallb (fun c => negb (Ascii.eqb c "(") && negb (Ascii.eqb c ")")) w = true -> word w.
Proof.
  intros H F. rewrite forallb_forall in F. split; [exact H|]. split; intros I; apply F in I; discriminate I.
Qed.
Definition eNa := mkElem $"Na" [] 0 []. Definition eSi := mkElem $"Si" [] 0 []. Definition eO := mkElem $"O" [] 0 [].
Section Samples.
Variable number : str -> Q.
Variable integer : str -> Z.
Hypothesis one : integer $"1" = 1%Z.
Lemma quartz_complete : CompleteNode number integer default_elements quartz.
Proof.
  exists (mkSpecies $"Quartz" $"SiO2" [] [(eSi, number $"1"); (eO, number $"2")] 0%Q Solid []).
  exists (MineralOf (mkMineral $"Quartz" (number $"-204646.0") (number $"-217650.0") (number $"9.88") (number $"22.688") 1 [number $"11.22"; number $"14.41"]
    [number $"0.0082"; number $"0.00194"] [number $"-270000.0"; number $"0.0"] [number $"848.0"] [number $"290.0"] [number $"0.372"] [number $"38.5"] (number $"2000.0"))).
  split; [|split; [|discriminate]].
  - exists MineralKind, $"Si(1)O(2)", [($"Si", $"1"); ($"O", $"2")].
    split; [apply (kind_mineral _ $"Mineral"); [apply text_of; reflexivity|left; reflexivity]|].
    split; [apply text_of; reflexivity|]. split; [apply text_of; reflexivity|]. split; [apply text_of; reflexivity|].
    split. { apply (composition_more $"Si" $"1" $"O(2)"); [apply word_of; [discriminate|reflexivity]..|].
             apply (composition_more $"O" $"2" []); [apply word_of; [discriminate|reflexivity]..|constructor]. }
    split; [reflexivity|]. split; [apply as_double_charge; reflexivity|]. split; [reflexivity|].
    apply (parameters_mineral _ _ _ _ $"1"); try reflexivity; try (apply text_of; reflexivity).
    + intros k f I. repeat (destruct I as [I|I]; [injection I as <- <-; eapply says_of; reflexivity|]). destruct I.
    + exact one.
    + discriminate.
    + intros _. repeat split; intros [|[|[|i]]] v E; try discriminate E; injection E as <-; try left; eapply says_of; reflexivity.
  - intros x [<-|[<-|[]]]; apply known_symbol; vm_compute; reflexivity.
Qed.
Lemma sodium_complete : CompleteNode number integer default_elements sodium.
Proof.
  exists (mkSpecies $"Na+" $"Na+" [] [(eNa, number $"1")] (number $"1") Aqueous []).
  exists (SoluteOf (mkSolute $"Na+" (number $"1") (number $"-62591.0") (number $"-57433.0") (number $"13.96") (number $"0.1839") (number $"-228.5") (number $"3.256") (number $"-27260.0")
    (number $"18.18") (number $"-29810.0") (number $"33060.0"))).
  split; [|split; [|discriminate]].
  - exists AqueousSolute, $"Na(1)", [($"Na", $"1")].
    split; [apply (kind_solute _ $"Aqueous" $"Na+"); [apply text_of; reflexivity|left; reflexivity|apply text_of; reflexivity|discriminate]|].
    split; [apply text_of; reflexivity|]. split; [apply text_of; reflexivity|]. split; [apply text_of; reflexivity|].
    split. { apply (composition_more $"Na" $"1" []); [apply word_of; [discriminate|reflexivity]..|constructor]. }
    split; [reflexivity|]. split; [apply as_double_charge; reflexivity|]. split; [reflexivity|].
    apply parameters_solute; [apply text_of; reflexivity|eapply says_of; reflexivity|].
    intros k f I. repeat (destruct I as [I|I]; [injection I as <- <-; eapply says_of; reflexivity|]). destruct I.
  - intros x [<-|[]]; apply known_symbol; vm_compute; reflexivity.
Qed.
End Samples.
(* The hypotheses hold for Quartz and Na+ of supcrt98.xml, whatever the numbers are. *)
Example C123_nonvacuous : forall number integer, integer $"1" = 1%Z ->
  SpeciesOf (document [empty $"Element"; quartz; sodium]) [quartz; sodium] /\ Forall (CompleteNode number integer default_elements) [quartz; sodium] /\ DistinctNames [quartz; sodium].
Proof.
  intros number integer one. split; [|split].
  - eapply species_of; [apply first_here; reflexivity|]. apply selected_no; [discriminate|]. apply selected_yes; [reflexivity|]. apply selected_yes; [reflexivity|]. constructor.
  - repeat constructor; [apply quartz_complete|apply sodium_complete]; exact one.
  - intros [|[|[|i]]] [|[|[|j]]] n m t Ei Ej Ti Tj; try discriminate Ei; try discriminate Ej; try reflexivity; injection Ei as <-; injection Ej as <-;
      apply text_at_spec in Ti, Tj; rewrite <- Tj in Ti; discriminate Ti.
Qed.

(* Dickite of supcrt98.xml (lines 1549-1568) has no energy and no enthalpy of formation
   (one of 40 minerals in each of the databases): both are then 999999 cal/mol. *)
Definition dickite : xml := Elt $"Species" None [leaf $"Name" $"Dickite"; leaf $"Formula" $"Al2Si2O5(OH)4"; leaf $"Elements" $"Al(2)Si(2)O(9)H(4)"; leaf $"Type" $"Mineral";
  Elt $"Thermo" None [Elt $"HKF" None [empty $"Gf"; empty $"Hf"; leaf $"Sr" $"47.1"; leaf $"Vr" $"99.3"; leaf $"NumPhaseTrans" $"0"; leaf $"Tmax" $"1000.0";
    leaf $"a" $"72.77"; leaf $"b" $"0.0292"; leaf $"c" $"-2152000.0"]]].
Theorem C123_missing_refuted : forall number integer, integer $"0" = 0%Z -> exists db p,
  parseDatabase number integer default_elements (document [dickite]) = Ok (db, [MineralOf p]) /\ map name (db_species db) = [$"Dickite"] /\ mn_name p = $"Dickite" /\
  mn_Gf p = 999999%Q /\ mn_Hf p = 999999%Q /\ (forall v, ~ Says number dickite (HKF $"Gf") v) /\ (forall v, ~ Says number dickite (HKF $"Hf") v).
Proof.
  intros number integer zero. unfold parseDatabase. change (children _ _) with [dickite]. cbn [addAll]. unfold addParsed, parseSpecies.
  assert (E : parseElements number dickite = Ok [($"Al", number $"2"); ($"Si", number $"2"); ($"O", number $"9"); ($"H", number $"4")]) by reflexivity.
  rewrite E. cbn [bind].
  destruct (composition_known default_elements [($"Al", number $"2"); ($"Si", number $"2"); ($"O", number $"9"); ($"H", number $"4")]) as (es & -> & _ & _).
  { intros x [<-|[<-|[<-|[<-|[]]]]]; apply known_symbol; vm_compute; reflexivity. }
  cbn [bind]. unfold parseParams, parseParamsMaierKellyHKF. change (as_int integer _ $"NumPhaseTrans" 999999%Z) with (integer $"0"). rewrite zero.
  change (Z.ltb 0 0) with false. cbv beta iota zeta. change (Z.to_nat 0) with 0. change (Nat.eqb 0 0) with true.
  change (str_eqb (as_lowercase_text (Some dickite) $"Type" missing_text) $"aqueous") with false. change (str_eqb (as_lowercase_text (Some dickite) $"Type" missing_text) $"gaseous") with false.
  change (str_eqb (as_lowercase_text (Some dickite) $"Type" missing_text) $"mineral") with true. cbn [andb omap bind fst snd].
  match goal with |- context [addSpecies emptyDB ?s] => destruct (addSpecies_total emptyDB s ltac:(discriminate)) as (db & E1); rewrite E1; destruct (addSpecies_spec _ _ _ E1) as (k & s' & S1 & _ & _ & S3 & _ & S4 & _) end.
  assert (k = 0) as ->. { destruct k; [reflexivity|]. destruct (S4 0 ltac:(lia)). }
  cbn [bind app]. do 2 eexists. split; [reflexivity|]. split; [rewrite S1; cbn [emptyDB db_species app map]; rewrite S3; reflexivity|].
  repeat (split; [reflexivity|]). split; intros v (t & H & _); apply text_at_spec in H; discriminate H.
Qed.
Print Assumptions C123_missing_refuted.
(* A composition that is missing, or that does not alternate, is read past its end. *)
Definition no_elements : xml := Elt $"Species" None [leaf $"Name" $"Quartz"; leaf $"Formula" $"SiO2"; leaf $"Type" $"Mineral"].
Definition odd_elements : xml := Elt $"Species" None [leaf $"Name" $"Quartz"; leaf $"Formula" $"SiO2"; leaf $"Elements" $"Si(1)O"; leaf $"Type" $"Mineral"].
Theorem C123_elements_refuted : forall number integer elements,
  parseDatabase number integer elements (document [no_elements]) = UB /\ parseDatabase number integer elements (document [odd_elements]) = UB.
Proof. intros. split; reflexivity. Qed.
Print Assumptions C123_elements_refuted.
(* An aqueous solute without a charge is neutral as a species, and has the charge
   999999 in the equation of state. *)
Definition no_charge : xml := Elt $"Species" None [leaf $"Name" $"O2(aq)"; leaf $"Formula" $"O2"; leaf $"Elements" $"O(2)"; leaf $"Type" $"Aqueous"].
Theorem C123_charge_refuted : forall number integer, exists s p,
  parseSpecies number integer default_elements no_charge = Ok (s, SoluteOf p) /\ sp_charge s = 0%Q /\ so_charge p = 999999%Q.
Proof.
  intros number integer. unfold parseSpecies. assert (E : parseElements number no_charge = Ok [($"O", number $"2")]) by reflexivity. rewrite E. cbn [bind].
  destruct (composition_known default_elements [($"O", number $"2")]) as (es & -> & _ & _); [intros x [<-|[]]; apply known_symbol; vm_compute; reflexivity|].
  cbn [bind]. change (parseParams number integer no_charge) with (Ok (SoluteOf (parseParamsAqueousSoluteHKF number no_charge))). cbn [bind].
  do 2 eexists. split; [reflexivity|]. split; reflexivity.
Qed.
Print Assumptions C123_charge_refuted.
Theorem C123_refuted : ~ C123_statement.
Proof.
  intros H. destruct (H (fun _ => 0%Q) (fun _ => 0%Z) [] (document [no_elements]) [no_elements]) as [_ N].
  - eapply species_of; [apply first_here; reflexivity|]. apply selected_yes; [reflexivity|constructor].
  - apply N. exact (proj1 (C123_elements_refuted _ _ _)).
Qed.
Print Assumptions C123_refuted.
