(* C59: parameters of models survive serialization. *)
From Coq Require Import Reals Qreals Lra.
From Verif Require M_Thermo M_HKF.
From Verif Require Import Base M_Strings M_Yaml.
Local Open Scope nat_scope.

(* Numbers written in a document are read back. *)
Record codec (print : double -> str) (read : str -> option double) (printN : nat -> str) (readN : str -> option nat) : Prop := {
  codec_num : forall d, read (print d) = Some d;
  codec_nat : forall n, readN (printN n) = Some n }.

(* The parameters of every model, encoded and decoded, are the same. *)
Definition survives {A} (encode : A -> yaml) (decode : yaml -> outcome A) (p : A) : Prop := decode (encode p) = Ok p.
Definition C59_statement : Prop := forall print read printN readN, codec print read printN readN ->
  (forall p, survives (encodeConstLgK print) (decodeConstLgK read) p) /\
  (forall p, survives (encodeGemsLgK print) (decodeGemsLgK read) p) /\
  (forall p, survives (encodePhreeqcLgK print) (decodePhreeqcLgK read) p) /\
  (forall p, survives (encodeVantHoff print) (decodeVantHoff read) p) /\
  (forall p, survives (encodeConstant print) (decodeConstant read) p) /\
  (forall p, survives (encodeHKF print) (decodeHKF read) p) /\
  (forall p, survives (encodeHP print) (decodeHP read) p) /\
  (forall p, survives (encodeMK print) (decodeMK read) p) /\
  (forall p, survives (encodeMin print printN) (decodeMin read readN) p) /\
  (forall p, survives (encodeWater print) (decodeWater read) p) /\
  (forall p, survives (encodeVolume print) (decodeVolume read) p).

Section Codec.
Variable print : double -> str.
Variable read : str -> option double.
Variable printN : nat -> str.
Variable readN : str -> option nat.
Hypothesis H : codec print read printN readN.
Lemma as_num_num d : as_num read (num print d) = Ok d.
Proof. unfold as_num, num. cbn [as_string bind]. rewrite (codec_num _ _ _ _ H). reflexivity. Qed.
Lemma as_nums_nums l : as_nums read (nums print l) = Ok l.
Proof. unfold as_nums, nums. induction l as [|d l IH]; [reflexivity|]. cbn [map mapM]. rewrite as_num_num. cbn [bind]. rewrite IH. reflexivity. Qed.
Lemma as_nat_nat n : as_nat readN (YScalar (printN n)) = Ok n.
Proof. unfold as_nat. cbn [as_string bind]. rewrite (codec_nat _ _ _ _ H). reflexivity. Qed.
Lemma get_num l key d : lookup_key l key = Some (num print d) -> get read (YMap l) key = Ok d.
Proof. intros E. unfold get, at_key, child. cbn [bind]. rewrite E. cbn [bind]. apply as_num_num. Qed.
Lemma gets_nums l key d : lookup_key l key = Some (nums print d) -> gets read (YMap l) key = Ok d.
Proof. intros E. unfold gets, at_key, child. cbn [bind]. rewrite E. cbn [bind]. apply as_nums_nums. Qed.
Lemma get_or_num l key d f : lookup_key l key = Some (num print d) -> get_or read (YMap l) key f = Ok d.
Proof. intros E. unfold get_or, child. cbn [bind]. rewrite E. apply as_num_num. Qed.
Lemma get_nat l key n : lookup_key l key = Some (YScalar (printN n)) -> bind (at_key (YMap l) key) (as_nat readN) = Ok n.
Proof. intros E. unfold at_key, child. cbn [bind]. rewrite E. cbn [bind]. apply as_nat_nat. Qed.
Ltac fld := match goal with
  | |- context [bind (get _ (YMap ?l) ?k) _] => erewrite (get_num l k) by reflexivity
  | |- context [bind (gets _ (YMap ?l) ?k) _] => erewrite (gets_nums l k) by reflexivity
  | |- context [bind (get_or _ (YMap ?l) ?k ?f) _] => erewrite (get_or_num l k _ f) by reflexivity
  | |- context [bind (bind (at_key (YMap ?l) ?k) _) _] => erewrite (get_nat l k) by reflexivity end; cbn [bind].

Lemma rt_ConstLgK p : decodeConstLgK read (encodeConstLgK print p) = Ok p.
Proof. unfold decodeConstLgK, encodeConstLgK. repeat fld. destruct p; reflexivity. Qed.
Lemma rt_GemsLgK p : decodeGemsLgK read (encodeGemsLgK print p) = Ok p.
Proof. unfold decodeGemsLgK, encodeGemsLgK. repeat fld. destruct p; reflexivity. Qed.
Lemma rt_PhreeqcLgK p : decodePhreeqcLgK read (encodePhreeqcLgK print p) = Ok p.
Proof. unfold decodePhreeqcLgK, encodePhreeqcLgK. repeat fld. destruct p; reflexivity. Qed.
Lemma rt_VantHoff p : decodeVantHoff read (encodeVantHoff print p) = Ok p.
Proof. unfold decodeVantHoff, encodeVantHoff. repeat fld. destruct p; reflexivity. Qed.
Lemma rt_Constant p : decodeConstant read (encodeConstant print p) = Ok p.
Proof. unfold decodeConstant, encodeConstant. repeat fld. destruct p; reflexivity. Qed.
Lemma rt_HKF p : decodeHKF read (encodeHKF print p) =
  Ok (mkHKF (hk_Gf p) (hk_Hf p) (hk_Sr p) (hk_a1 p) (hk_a2 p) (hk_a3 p) (hk_a4 p) (hk_c1 p) (hk_c2 p) (hk_wref p) (hk_charge p) (Fin 0)).
Proof. unfold decodeHKF, encodeHKF. repeat fld. reflexivity. Qed.
Lemma rt_HP p : is_zero (hp_kappa0 p) = false -> decodeHP read (encodeHP print p) = Ok p.
Proof.
  intros Z. unfold decodeHP, encodeHP. rewrite Z. cbn [app].
  do 8 fld. match goal with |- context [child (YMap ?l) ?k] => change (child (YMap l) k) with (Ok (Some (num print (hp_kappa0 p)))) end. cbn [bind]. repeat fld. destruct p; reflexivity.
Qed.
Lemma rt_HP0 p : is_zero (hp_kappa0 p) = true -> decodeHP read (encodeHP print p) =
  Ok (mkHP (hp_Gf p) (hp_Hf p) (hp_Sr p) (hp_Vr p) (hp_a p) (hp_b p) (hp_c p) (hp_d p) (Fin 0) (Fin 0) (Fin 0) (Fin 0) (Fin 0) (hp_Tmax p)).
Proof.
  intros Z. unfold decodeHP, encodeHP. rewrite Z. cbn [app].
  do 8 fld. match goal with |- context [child (YMap ?l) ?k] => change (child (YMap l) k) with (@Ok (option yaml) None) end. cbn [bind]. repeat fld. reflexivity.
Qed.
Lemma rt_MK p : decodeMK read (encodeMK print p) = Ok p.
Proof. unfold decodeMK, encodeMK. repeat fld. destruct p; reflexivity. Qed.
Lemma rt_Min p : decodeMin read readN (encodeMin print printN p) = Ok p.
Proof. unfold decodeMin, encodeMin. repeat fld. destruct p; reflexivity. Qed.
Lemma rt_Water p : decodeWater read (encodeWater print p) = Ok p.
Proof. unfold decodeWater, encodeWater. repeat fld. destruct p; reflexivity. Qed.
Lemma rt_Volume p : decodeVolume read (encodeVolume print p) = Ok p.
Proof. unfold decodeVolume, encodeVolume. repeat fld. destruct p; reflexivity. Qed.
End Codec.

(* ---- A codec: numbers in unary ---- *)
Fixpoint count (c : ascii) (t : str) : nat * str :=
  match t with a :: t' => if Ascii.eqb a c then let (n, r) := count c t' in (S n, r) else (0, t) | [] => (0, []) end.
Definition printU (n : nat) : str := repeat "1"%char n.
Definition readU (t : str) : option nat := match count "1" t with (n, []) => Some n | _ => None end.
Definition printD (d : double) : str :=
  match d with
  | Fin q => (if (Qnum q <? 0)%Z then "-"%char else "+"%char) :: printU (Z.to_nat (Z.abs (Qnum q))) ++ "/"%char :: printU (Pos.to_nat (Qden q))
  | Inf true => $"-i" | Inf false => $"i" | NaN => $"n"
  end.
Definition readD (t : str) : option double :=
  match t with
  | c :: t' =>
    if Ascii.eqb c "n" then Some NaN else if Ascii.eqb c "i" then Some (Inf false) else
    match count "1" t' with
    | (n, _ :: r) =>
      let m := fst (count "1" r) in
      if Nat.eqb m 0 then Some (Inf true)
      else Some (Fin (Qmake (if Ascii.eqb c "-" then - Z.of_nat n else Z.of_nat n)%Z (Pos.of_nat m)))
    | _ => None
    end
  | [] => None
  end.
Lemma count_printU n t : (forall c t', t = c :: t' -> c <> "1"%char) -> count "1" (printU n ++ t) = (n, t).
Proof.
  intros E. induction n as [|n IH]; cbn.
  - destruct t as [|c t']; [reflexivity|]. cbn. destruct (Ascii.eqb_spec c "1"); [exfalso; eapply E; eauto|reflexivity].
  - unfold printU in IH. rewrite IH. reflexivity.
Qed.
Lemma count_printU_nil n : count "1" (printU n) = (n, []).
Proof. rewrite <- (app_nil_r (printU n)) at 1. apply count_printU. intros; discriminate. Qed.
Lemma unary_codec : codec printD readD printU readU.
Proof.
  split.
  - intros [[n d]|[]|]; try reflexivity. unfold printD, readD. cbn [Qnum Qden].
    destruct (Z.ltb_spec n 0); cbn [Ascii.eqb]; cbn -[printU count Z.abs Z.to_nat Pos.to_nat];
    rewrite count_printU by (intros c t' E; injection E as <- _; discriminate); rewrite count_printU_nil; cbn [fst];
    (destruct (Nat.eqb_spec (Pos.to_nat d) 0); [lia|]); rewrite Pos2Nat.id, Z2Nat.id by lia; f_equal; f_equal; f_equal; lia.
  - intros n. unfold readU. rewrite count_printU_nil. reflexivity.
Qed.

(* ---- The property is false ---- *)
Definition hkf_witness : HKF := mkHKF (Fin 1) (Fin 2) (Fin 3) (Fin 4) (Fin 5) (Fin 6) (Fin 7) (Fin 8) (Fin 9) (Fin 10) (Fin 1) (Fin 1000).
Theorem C59_refuted : ~ C59_statement.
Proof.
  intros S. destruct (S _ _ _ _ unary_codec) as (_ & _ & _ & _ & _ & E & _).
  specialize (E hkf_witness). unfold survives in E. rewrite (rt_HKF _ _ _ _ unary_codec) in E. discriminate E.
Qed.
Print Assumptions C59_refuted.
(* The other witness: a mineral with no compressibility loses its number of atoms. *)
Definition hp_witness : HollandPowell := mkHP (Fin 1) (Fin 2) (Fin 3) (Fin 4) (Fin 5) (Fin 6) (Fin 7) (Fin 8) (Fin 9) (Fin 0) (Fin 1) (Fin 2) (Fin 5) (Fin 1000).
Theorem C59_hollandpowell_refuted : ~ (forall print read printN readN, codec print read printN readN -> forall p, survives (encodeHP print) (decodeHP read) p).
Proof.
  intros S. specialize (S _ _ _ _ unary_codec hp_witness). unfold survives in S.
  rewrite (rt_HP0 _ _ _ _ unary_codec) in S by reflexivity. discriminate S.
Qed.
Print Assumptions C59_hollandpowell_refuted.

(* ---- What holds ---- *)
Theorem C59_parameters_partial : forall print read printN readN, codec print read printN readN ->
  (forall p, survives (encodeConstLgK print) (decodeConstLgK read) p) /\
  (forall p, survives (encodeGemsLgK print) (decodeGemsLgK read) p) /\
  (forall p, survives (encodePhreeqcLgK print) (decodePhreeqcLgK read) p) /\
  (forall p, survives (encodeVantHoff print) (decodeVantHoff read) p) /\
  (forall p, survives (encodeConstant print) (decodeConstant read) p) /\
  (forall p, survives (encodeHKF print) (decodeHKF read) p <-> hk_Tmax p = Fin 0) /\
  (forall p, survives (encodeHP print) (decodeHP read) p <->
     is_zero (hp_kappa0 p) = false \/
     hp_alpha0 p = Fin 0 /\ hp_kappa0 p = Fin 0 /\ hp_kappa0p p = Fin 0 /\ hp_kappa0pp p = Fin 0 /\ hp_numatoms p = Fin 0) /\
  (forall p, survives (encodeMK print) (decodeMK read) p) /\
  (forall p, survives (encodeMin print printN) (decodeMin read readN) p) /\
  (forall p, survives (encodeWater print) (decodeWater read) p) /\
  (forall p, survives (encodeVolume print) (decodeVolume read) p).
Proof.
  intros print read printN readN C. unfold survives.
  repeat (match goal with |- _ /\ _ => split end); intros p.
  - apply (rt_ConstLgK _ _ _ _ C).
  - apply (rt_GemsLgK _ _ _ _ C).
  - apply (rt_PhreeqcLgK _ _ _ _ C).
  - apply (rt_VantHoff _ _ _ _ C).
  - apply (rt_Constant _ _ _ _ C).
  - rewrite (rt_HKF _ _ _ _ C). split; [intros E; injection E as E; rewrite <- E at 1; reflexivity|]. intros E. destruct p. cbn in *. subst. reflexivity.
  - destruct (is_zero (hp_kappa0 p)) eqn:Z.
    + rewrite (rt_HP0 _ _ _ _ C _ Z). split.
      * intros E. right. destruct p. cbn in *. injection E as <- <- <- <- <-. auto.
      * intros [E|E]; [discriminate|]. destruct p. cbn in *. destruct E as (-> & -> & -> & -> & ->). reflexivity.
    + rewrite (rt_HP _ _ _ _ C _ Z). split; auto.
  - apply (rt_MK _ _ _ _ C).
  - apply (rt_Min _ _ _ _ C).
  - apply (rt_Water _ _ _ _ C).
  - apply (rt_Volume _ _ _ _ C).
Qed.
Print Assumptions C59_parameters_partial.

(* What a number is worth: nothing is said of infinities and NaN. *)
Definition worth (val : double -> R) : Prop := forall q, val (Fin q) = Q2R q.
Definition hkfR (val : double -> R) (p : HKF) : M_HKF.HKF :=
  M_HKF.mkHKF (val (hk_Gf p)) (val (hk_Hf p)) (val (hk_Sr p)) (val (hk_a1 p)) (val (hk_a2 p)) (val (hk_a3 p)) (val (hk_a4 p))
    (val (hk_c1 p)) (val (hk_c2 p)) (val (hk_wref p)) (val (hk_charge p)) (val (hk_Tmax p)).
Definition hpR (val : double -> R) (p : HollandPowell) : M_Thermo.HollandPowell :=
  M_Thermo.mkHP (val (hp_Gf p)) (val (hp_Hf p)) (val (hp_Sr p)) (val (hp_Vr p)) (val (hp_a p)) (val (hp_b p)) (val (hp_c p)) (val (hp_d p))
    (val (hp_alpha0 p)) (val (hp_kappa0 p)) (val (hp_kappa0p p)) (val (hp_kappa0pp p)) (val (hp_numatoms p)).
(* The fields that are lost are not used: the properties given by the two models are
   the same before and after, at every temperature and pressure. *)
Theorem C59_evaluation_partial : forall print read printN readN val, codec print read printN readN -> worth val ->
  (forall p, exists p', decodeHKF read (encodeHKF print p) = Ok p' /\
     forall wts T P, M_HKF.StandardThermoModelHKF (hkfR val p') wts T P = M_HKF.StandardThermoModelHKF (hkfR val p) wts T P) /\
  (forall p, exists p', decodeHP read (encodeHP print p) = Ok p' /\
     forall T P, M_Thermo.stdHollandPowell (hpR val p') T P = M_Thermo.stdHollandPowell (hpR val p) T P).
Proof.
  intros print read printN readN val C W. split; intros p.
  - eexists. split; [apply (rt_HKF _ _ _ _ C)|]. intros. reflexivity.
  - destruct (is_zero (hp_kappa0 p)) eqn:Z.
    + eexists. split; [apply (rt_HP0 _ _ _ _ C _ Z)|]. intros T P. unfold hpR, M_Thermo.stdHollandPowell.
      cbn [hp_Gf hp_Hf hp_Sr hp_Vr hp_a hp_b hp_c hp_d hp_alpha0 hp_kappa0 hp_kappa0p hp_kappa0pp hp_numatoms].
      assert (V : val (hp_kappa0 p) = 0%R).
      { destruct (hp_kappa0 p); try discriminate. cbn in Z. apply Qeq_bool_iff in Z. rewrite W. apply Qeq_eqR in Z. rewrite Z. unfold Q2R. cbn. lra. }
      assert (V0 : val (Fin 0) = 0%R) by (rewrite W; unfold Q2R; cbn; lra).
      rewrite V, V0. destruct (Req_EM_T 0 0) as [_|N]; [reflexivity|exfalso; apply N; reflexivity].
    + eexists. split; [apply (rt_HP _ _ _ _ C _ Z)|]. reflexivity.
Qed.
Print Assumptions C59_evaluation_partial.

(* Models: what is read is a model of the same kind, and a model without a serializer
   is written as nothing and cannot be read. *)
Theorem C59_models_partial : forall print read printN readN, codec print read printN readN ->
  (forall m, match StandardThermoModelYAML read readN (serializeStd print printN m) with
    | Ok m' => m' = m \/ (exists p, m = SHKF p /\ hk_Tmax p <> Fin 0 /\ exists p', m' = SHKF p') \/
               (exists p, m = SHollandPowell p /\ is_zero (hp_kappa0 p) = true /\ exists p', m' = SHollandPowell p')
    | Err => m = SOther
    | UB => False end) /\
  (forall m, match ReactionThermoModelYAML read (serializeRxn print m) with
    | Ok m' => m' = m
    | Err => m = ROther
    | UB => False end).
Proof.
  intros print read printN readN C. split; intros [].
  - cbn -[decodeConstant encodeConstant]. rewrite (rt_Constant _ _ _ _ C). left. reflexivity.
  - cbn -[decodeHKF encodeHKF]. rewrite (rt_HKF _ _ _ _ C). cbn [omap].
    assert (D : hk_Tmax p = Fin 0 \/ hk_Tmax p <> Fin 0).
    { destruct (hk_Tmax p) as [[n d]|b|]; try (right; discriminate).
      destruct (Z.eq_dec n 0) as [->|N]; [|right; intros E; injection E; intros; contradiction].
      destruct (Pos.eq_dec d 1) as [->|N]; [left; reflexivity|right; intros E; injection E; intros; contradiction]. }
    destruct D as [D|D].
    + left. f_equal. destruct p. cbn in *. subst. reflexivity.
    + right. left. exists p. repeat split; auto. eexists. reflexivity.
  - cbn -[decodeHP encodeHP]. destruct (is_zero (hp_kappa0 p)) eqn:Z.
    + rewrite (rt_HP0 _ _ _ _ C _ Z). right. right. exists p. repeat split; auto. eexists. reflexivity.
    + rewrite (rt_HP _ _ _ _ C _ Z). left. reflexivity.
  - cbn -[decodeMK encodeMK]. rewrite (rt_MK _ _ _ _ C). left. reflexivity.
  - cbn -[decodeMin encodeMin]. rewrite (rt_Min _ _ _ _ C). left. reflexivity.
  - cbn -[decodeWater encodeWater]. rewrite (rt_Water _ _ _ _ C). left. reflexivity.
  - reflexivity.
  - cbn -[decodeConstLgK encodeConstLgK]. rewrite (rt_ConstLgK _ _ _ _ C). reflexivity.
  - cbn -[decodeGemsLgK encodeGemsLgK]. rewrite (rt_GemsLgK _ _ _ _ C). reflexivity.
  - cbn -[decodePhreeqcLgK encodePhreeqcLgK]. rewrite (rt_PhreeqcLgK _ _ _ _ C). reflexivity.
  - cbn -[decodeVantHoff encodeVantHoff]. rewrite (rt_VantHoff _ _ _ _ C). reflexivity.
  - reflexivity.
Qed.
Print Assumptions C59_models_partial.

(* The hypotheses are met: there is a codec, and numbers have worths. *)
Example C59_nonvacuous : codec printD readD printU readU /\ worth (fun d => match d with Fin q => Q2R q | _ => 0%R end) /\
  decodeVantHoff readD (encodeVantHoff printD (mkVantHoff (Fin (-7 # 2)) (Fin 3) (Fin 298) (Fin 1))) = Ok (mkVantHoff (Fin (-7 # 2)) (Fin 3) (Fin 298) (Fin 1)).
Proof. split; [apply unary_codec|]. split; [intros q; reflexivity|]. apply (rt_VantHoff _ _ _ _ unary_codec). Qed.
