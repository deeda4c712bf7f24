(* C127: mechanisms of mineral reactions written as texts. *)
From Coq Require Import Reals Qreals Qpower List Bool Lia Lra.
Import ListNotations.
From Verif Require Import Base M_Strings S_Strings P_Strings S_Formula M_Formula P_Formula M_Units P_Units M_DatabaseOut P_Ostream.
From Verif Require Import M_Mechanism.
Local Open Scope nat_scope.
Set Implicit Arguments.

(* ---- Specification ---- *)
(* A decimal number: its sign, the digits before and after the point. *)
Record decimal := { negative : bool; before : str; after : str }.
Definition decimal_wf (d : decimal) : Prop := before d <> [] /\ all_digits (before d) /\ all_digits (after d).
Definition decimal_text (d : decimal) : str :=
  (if negative d then $"-" else []) ++ before d ++ (match after d with [] => [] | f => "."%char :: f end).
Definition decimal_value (d : decimal) : Q :=
  ((if negative d then -1 else 1) * (digits_value (before d ++ after d) / Qpower (10#1) (Z.of_nat (length (after d)))))%Q.

(* What can be said in the text of a mechanism. *)
Inductive Entry :=
| Rate (v : decimal) (unit : str)
| Energy (v : decimal) (unit : str)
| PowerP (v : decimal)
| PowerQ (v : decimal)
| Catalyst (quantity species : str) (v : decimal).
(* The text of one entry: its words, with equal signs and blanks between them. *)
Definition Written (e : Entry) (o : str) : Prop :=
  match e with
  | Rate v u => decimal_wf v /\ ~ In "["%char u /\ Tokens $"= " o [$"logk"; decimal_text v; u]
  | Energy v u => decimal_wf v /\ ~ In "["%char u /\ Tokens $"= " o [$"Ea"; decimal_text v; u]
  | PowerP v => decimal_wf v /\ Tokens $"= " o [$"p"; decimal_text v]
  | PowerQ v => decimal_wf v /\ Tokens $"= " o [$"q"; decimal_text v]
  | Catalyst q s v => decimal_wf v /\ In q [$"a"; $"activity"; $"p"; $"pressure"] /\ s <> [] /\ none_in $"[]" s /\
      Tokens $"= " o [q ++ $"[" ++ s ++ $"]"; decimal_text v]
  end.
(* The units that are written are units of a rate constant and of an energy. *)
Definition units_ok (e : Entry) : Prop :=
  match e with
  | Rate _ u => convertible u $"mol/(m2*s)" = Ok true
  | Energy _ u => convertible u $"kJ/mol" = Ok true
  | _ => True
  end.
(* What an entry says: the rate constant in mol/(m2*s), the energy in kJ/mol. *)
Definition RateOf (e : Entry) (r : R) : Prop :=
  exists v u k, e = Rate v u /\ convert 1 u $"mol/(m2*s)" = Ok k /\ r = (Q2R k * Rpower 10 (Q2R (decimal_value v)))%R.
Definition EnergyOf (e : Entry) (r : R) : Prop :=
  exists v u k, e = Energy v u /\ convert 1 u $"kJ/mol" = Ok k /\ r = (Q2R k * Q2R (decimal_value v))%R.
Definition PowerPOf (e : Entry) (r : R) : Prop := exists v, e = PowerP v /\ r = Q2R (decimal_value v).
Definition PowerQOf (e : Entry) (r : R) : Prop := exists v, e = PowerQ v /\ r = Q2R (decimal_value v).
(* The value given last, or the default one. *)
Definition Last {A} (says : Entry -> A -> Prop) (dflt : A) (es : list Entry) (r : A) : Prop :=
  (r = dflt /\ forall e a, In e es -> ~ says e a) \/
  (exists pre e post, es = pre ++ e :: post /\ says e r /\ forall e' a, In e' post -> ~ says e' a).
Definition catalysts_of (es : list Entry) : list MineralCatalyst :=
  flat_map (fun e => match e with Catalyst q s v => [{| species := s; quantity := q; power := Q2R (decimal_value v) |}] | _ => [] end) es.
Definition Means (es : list Entry) (m : MineralMechanism) : Prop :=
  Last RateOf 0%R es (kappa m) /\ Last EnergyOf 0%R es (Ea m) /\ Last PowerPOf 1%R es (p m) /\ Last PowerQOf 1%R es (q m) /\
  catalysts m = catalysts_of es.
(* A text of entries separated by one of the given characters. *)
Definition Text (sep : str) (text : str) (es : list Entry) : Prop :=
  exists os, Tokens sep text os /\ Forall2 Written es os.

(* A text that follows the examples of the documentation, whose entries are
   separated by commas, or that uses semicolons, has the mechanism it describes;
   any other text is refused; mechanisms are equal when they are the same. *)
Definition C127_statement : Prop :=
  (forall sep text es, In sep [$","; $";"] -> Text sep text es -> Forall units_ok es -> exists m, mechanism text = Ok m /\ Means es m) /\
  (forall text, mechanism text <> UB) /\
  (forall text m, mechanism text = Ok m -> exists es, Text $";" text es /\ Means es m) /\
  (forall a b, mechanism_eq a b -> a = b).

(* ---- Proofs ---- *)
Lemma decimal_reads d : decimal_wf d -> tofloat (decimal_text d) = Q2R (decimal_value d).
Proof.
  intros (N & B & A). unfold tofloat. apply Qeq_eqR. unfold atof.
  assert (E : decimal_text d = (if negative d then ["-"%char] else []) ++ before d ++ point (after d) ++ []).
  { unfold decimal_text, point. rewrite app_nil_r. destruct (after d); reflexivity. }
  destruct (@strtod_decimal (negative d) (before d) (after d) [] 0 N B A) as (x & S & V); [left; split; reflexivity|].
  rewrite E, S, V. unfold decimal_value. rewrite digits_value_Z. unfold Qdiv. rewrite <- Qpower_opp.
  replace (0 - Z.of_nat (length (after d)))%Z with (- Z.of_nat (length (after d)))%Z by lia. reflexivity.
Qed.

Lemma Tokens_in delims s ws c : Tokens delims s ws -> In c s -> In c delims \/ exists w, In w ws /\ In c w.
Proof.
  intros T. induction T as [ds H|ds w rest ws H1 H2 H3 H4 T IH]; intros I; [left; apply H, I|].
  apply in_app_iff in I as [I|I]; [left; apply H1, I|]. apply in_app_iff in I as [I|I].
  - right. exists w. split; [left; reflexivity|exact I].
  - destruct (IH I) as [L|(w' & J & K)]; [left; exact L|]. right. exists w'. split; [right; exact J|exact K].
Qed.
Lemma has_true sub s : has sub s = true <-> exists k, occurs_at sub s k.
Proof.
  unfold has. destruct (find_sub sub s) as [k|] eqn:F.
  - split; [intros _; exists k; apply (proj1 (@find_sub_some sub s k F))|reflexivity].
  - split; [discriminate|]. intros (k & O). exfalso. exact (@find_sub_none sub s F k O).
Qed.
Lemma has_no_bracket sub s : In "["%char sub -> ~ In "["%char s -> has sub s = false.
Proof.
  intros I N. destruct (has sub s) eqn:E; [|reflexivity]. exfalso. apply has_true in E as (k & a & b & -> & _). apply N.
  apply in_app_iff. right. apply in_app_iff. left. exact I.
Qed.
Lemma not_catalyst o : ~ In "["%char o -> isCatalyst o = false.
Proof.
  intros N. unfold isCatalyst. rewrite !has_no_bracket; try exact N; try reflexivity; cbn [In list_ascii_of_string]; tauto.
Qed.
Lemma is_catalyst q s o : In q [$"a"; $"activity"; $"p"; $"pressure"] -> (exists a b, o = a ++ (q ++ $"[" ++ s) ++ b) -> isCatalyst o = true.
Proof.
  intros I (a & b & ->). assert (H : has (q ++ $"[") (a ++ (q ++ $"[" ++ s) ++ b) = true).
  { apply has_true. exists (length a), a, (s ++ b). split; [|reflexivity]. rewrite <- !app_assoc. reflexivity. }
  unfold isCatalyst. generalize dependent (a ++ (q ++ $"[" ++ s) ++ b). intros o H. destruct I as [<-|[<-|[<-|[<-|[]]]]].
  - change (has $"a[" o = true) in H. rewrite H. reflexivity.
  - change (has $"activity[" o = true) in H. rewrite H, orb_true_r. reflexivity.
  - change (has $"p[" o = true) in H. rewrite H, orb_true_r. reflexivity.
  - change (has $"pressure[" o = true) in H. rewrite H, orb_true_r. reflexivity.
Qed.
Lemma decimal_no_bracket d : decimal_wf d -> ~ In "["%char (decimal_text d).
Proof.
  intros (_ & B & A) I. unfold decimal_text in I. apply in_app_iff in I as [I|I].
  - destruct (negative d); cbn in I; [destruct I as [E|[]]; discriminate E|destruct I].
  - apply in_app_iff in I as [I|I]; [specialize (B _ I); discriminate B|].
    destruct (after d) as [|c f] eqn:E; [destruct I|]. destruct I as [I|I]; [discriminate I|]. specialize (A _ I). discriminate A.
Qed.

(* Conversions to a unit that is not one of temperature are proportional. *)
Lemma convertR_proportional u t v : isTemp t = false -> convertible u t = Ok true ->
  exists k, convert 1 u t = Ok k /\ convertR v u t = Ok (Q2R k * v)%R.
Proof.
  intros NT C. destruct (@convert_roundtrip u t C 1%Q) as (y & z & E & _). exists y. split; [exact E|].
  unfold convert in E. unfold convertR. destruct (str_eqb u t).
  - injection E as <-. f_equal. rewrite RMicromega.Q2R_1. ring.
  - destruct (slope u t) as [a| |]; cbn [bind] in *; try discriminate E. unfold intercept in *. rewrite NT, andb_false_r in *.
    cbn [bind] in *. injection E as <-. f_equal. rewrite Q2R_plus, Q2R_mult, RMicromega.Q2R_1, RMicromega.Q2R_0. ring.
Qed.

(* One entry. *)
Definition after_entry (e : Entry) (m m' : MineralMechanism) : Prop :=
  match e with
  | Rate _ _ => RateOf e (kappa m') /\ Ea m' = Ea m /\ p m' = p m /\ q m' = q m /\ catalysts m' = catalysts m
  | Energy _ _ => EnergyOf e (Ea m') /\ kappa m' = kappa m /\ p m' = p m /\ q m' = q m /\ catalysts m' = catalysts m
  | PowerP _ => PowerPOf e (p m') /\ kappa m' = kappa m /\ Ea m' = Ea m /\ q m' = q m /\ catalysts m' = catalysts m
  | PowerQ _ => PowerQOf e (q m') /\ kappa m' = kappa m /\ Ea m' = Ea m /\ p m' = p m /\ catalysts m' = catalysts m
  | Catalyst _ _ _ => kappa m' = kappa m /\ Ea m' = Ea m /\ p m' = p m /\ q m' = q m /\ catalysts m' = catalysts m ++ catalysts_of [e]
  end.
Lemma plain_option w v us o : decimal_wf v -> ~ In "["%char w -> (forall u, In u us -> ~ In "["%char u) -> Tokens $"= " o (w :: decimal_text v :: us) -> isCatalyst o = false.
Proof.
  intros D N U T. apply not_catalyst. intros I. destruct (Tokens_in _ T I) as [E|(x & [<-|[<-|J]] & K)].
  - cbn in E. destruct E as [E|[E|[]]]; discriminate E.
  - exact (N K).
  - exact (decimal_no_bracket D K).
  - exact (U _ J K).
Qed.
Ltac letters := cbn; intros J; repeat (destruct J as [J|J]; [discriminate J|]); destruct J.
Lemma addOption_written e o m : Written e o -> units_ok e -> exists m', addOption m o = Ok m' /\ after_entry e m m'.
Proof.
  intros W U. unfold addOption. destruct e as [v u|v u|v|v|qt s v]; cbn [Written units_ok after_entry] in *.
  - destruct W as (D & N & T). rewrite (@plain_option $"logk" v [u] o D) by (first [exact T | intros ? [<-|[]]; exact N | letters]).
    rewrite (Tokens_split _ _ _ T). cbn [length Nat.eqb Nat.ltb Nat.leb orb word nth_error bind nth]. change (str_eqb $"logk" $"logk") with true. cbn [orb andb].
    destruct (@convertR_proportional u $"mol/(m2*s)" (Rpower 10 (tofloat (decimal_text v))) eq_refl U) as (k & K1 & K2).
    unfold setRateConstant. rewrite U. cbn [bind]. rewrite K2. cbn [bind]. eexists. split; [reflexivity|]. cbn. rewrite (decimal_reads D).
    split; [|repeat split]. exists v, u, k. split; [reflexivity|]. split; [exact K1|reflexivity].
  - destruct W as (D & N & T). rewrite (@plain_option $"Ea" v [u] o D) by (first [exact T | intros ? [<-|[]]; exact N | letters]).
    rewrite (Tokens_split _ _ _ T). cbn [length Nat.eqb Nat.ltb Nat.leb orb word nth_error bind nth]. change (str_eqb $"Ea" $"logk") with false. change (str_eqb $"Ea" $"Ea") with true. cbn [orb andb].
    destruct (@convertR_proportional u $"kJ/mol" (tofloat (decimal_text v)) eq_refl U) as (k & K1 & K2).
    unfold setActivationEnergy. rewrite U. cbn [bind]. rewrite K2. cbn [bind]. eexists. split; [reflexivity|]. cbn. rewrite (decimal_reads D).
    split; [|repeat split]. exists v, u, k. split; [reflexivity|]. split; [exact K1|reflexivity].
  - destruct W as (D & T). rewrite (@plain_option $"p" v [] o D) by (first [exact T | intros ? [] | letters]).
    rewrite (Tokens_split _ _ _ T). cbn [length Nat.eqb Nat.ltb Nat.leb orb word nth_error bind nth].
    change (str_eqb $"p" $"logk") with false. change (str_eqb $"p" $"Ea") with false. change (str_eqb $"p" $"p") with true. cbn [orb andb].
    eexists. split; [reflexivity|]. cbn. rewrite (decimal_reads D). split; [|repeat split]. exists v. split; reflexivity.
  - destruct W as (D & T). rewrite (@plain_option $"q" v [] o D) by (first [exact T | intros ? [] | letters]).
    rewrite (Tokens_split _ _ _ T). cbn [length Nat.eqb Nat.ltb Nat.leb orb word nth_error bind nth].
    change (str_eqb $"q" $"logk") with false. change (str_eqb $"q" $"Ea") with false. change (str_eqb $"q" $"p") with false. change (str_eqb $"q" $"q") with true. cbn [orb andb].
    eexists. split; [reflexivity|]. cbn. rewrite (decimal_reads D). split; [|repeat split]. exists v. split; reflexivity.
  - destruct W as (D & I & Ns & B & T). rewrite (@is_catalyst qt (s ++ $"]") o I).
    2:{ inversion T as [|ds w rest ws H1 H2 H3 H4 T' E1 E2]. exists ds, rest. reflexivity. }
    unfold catalyst_text. rewrite (Tokens_split _ _ _ T). cbn [length Nat.eqb negb word nth_error bind].
    assert (S : split (qt ++ $"[" ++ s ++ $"]") $"[]" = [qt; s]).
    { apply split_correct. change (qt ++ $"[" ++ s ++ $"]") with ([] ++ qt ++ ($"[" ++ s ++ $"]")). apply Tokens_cons.
      - intros c [].
      - destruct I as [<-|[<-|[<-|[<-|[]]]]]; discriminate.
      - destruct I as [<-|[<-|[<-|[<-|[]]]]]; intros c J K; cbn in J, K; repeat (destruct J as [<-|J]; [destruct K as [K|[K|[]]]; discriminate K|]); destruct J.
      - intros c r' E. injection E as <- _. left. reflexivity.
      - apply Tokens_cons.
        + intros c [<-|[]]. left. reflexivity.
        + exact Ns.
        + exact B.
        + intros c r' E. injection E as <- _. right. left. reflexivity.
        + apply Tokens_nil. intros c [<-|[]]. right. left. reflexivity. }
    rewrite S. cbn [word nth_error bind]. unfold catalyst.
    assert (Q : checkCatalystQuantity qt = Ok tt) by (destruct I as [<-|[<-|[<-|[<-|[]]]]]; reflexivity).
    rewrite Q. cbn [bind]. eexists. split; [reflexivity|]. cbn. rewrite (decimal_reads D). repeat split.
Qed.

(* A list of entries. *)
Lemma Last_nil {A} (says : Entry -> A -> Prop) d : Last says d [] d.
Proof. left. split; [reflexivity|]. intros e a []. Qed.
Lemma Last_snoc_says {A} (says : Entry -> A -> Prop) d es e r : says e r -> Last says d (es ++ [e]) r.
Proof. intros H. right. exists es, e, []. split; [reflexivity|]. split; [exact H|]. intros e' a []. Qed.
Lemma Last_snoc_other {A} (says : Entry -> A -> Prop) d es e r : (forall a, ~ says e a) -> Last says d es r -> Last says d (es ++ [e]) r.
Proof.
  intros N [(-> & H)|(pre & x & post & -> & S & H)].
  - left. split; [reflexivity|]. intros y a I. apply in_app_iff in I as [I|[<-|[]]]; [apply H, I|apply N].
  - right. exists pre, x, (post ++ [e]). split; [rewrite <- app_assoc; reflexivity|]. split; [exact S|].
    intros y a I. apply in_app_iff in I as [I|[<-|[]]]; [apply H, I|apply N].
Qed.
Lemma catalysts_of_app a b : catalysts_of (a ++ b) = catalysts_of a ++ catalysts_of b.
Proof. apply flat_map_app. Qed.
Lemma not_rate e : (forall v u, e <> Rate v u) -> forall a, ~ RateOf e a.
Proof. intros H a (v & u & k & E & _). exact (H _ _ E). Qed.
Lemma not_energy e : (forall v u, e <> Energy v u) -> forall a, ~ EnergyOf e a.
Proof. intros H a (v & u & k & E & _). exact (H _ _ E). Qed.
Lemma not_p e : (forall v, e <> PowerP v) -> forall a, ~ PowerPOf e a.
Proof. intros H a (v & E & _). exact (H _ E). Qed.
Lemma not_q e : (forall v, e <> PowerQ v) -> forall a, ~ PowerQOf e a.
Proof. intros H a (v & E & _). exact (H _ E). Qed.
Lemma Means_snoc es e m m' : Means es m -> after_entry e m m' -> Means (es ++ [e]) m'.
Proof.
  intros (K & E & P & Q & C) A. unfold Means. rewrite catalysts_of_app.
  destruct e as [v u|v u|v|v|qt s v]; cbn [after_entry] in A.
  - destruct A as (X & -> & -> & -> & ->). rewrite C. cbn [catalysts_of flat_map]. rewrite app_nil_r.
    split; [apply Last_snoc_says, X|]. split; [apply Last_snoc_other; [apply not_energy; discriminate|exact E]|].
    split; [apply Last_snoc_other; [apply not_p; discriminate|exact P]|]. split; [apply Last_snoc_other; [apply not_q; discriminate|exact Q]|reflexivity].
  - destruct A as (X & -> & -> & -> & ->). rewrite C. cbn [catalysts_of flat_map]. rewrite app_nil_r.
    split; [apply Last_snoc_other; [apply not_rate; discriminate|exact K]|]. split; [apply Last_snoc_says, X|].
    split; [apply Last_snoc_other; [apply not_p; discriminate|exact P]|]. split; [apply Last_snoc_other; [apply not_q; discriminate|exact Q]|reflexivity].
  - destruct A as (X & -> & -> & -> & ->). rewrite C. cbn [catalysts_of flat_map]. rewrite app_nil_r.
    split; [apply Last_snoc_other; [apply not_rate; discriminate|exact K]|]. split; [apply Last_snoc_other; [apply not_energy; discriminate|exact E]|].
    split; [apply Last_snoc_says, X|]. split; [apply Last_snoc_other; [apply not_q; discriminate|exact Q]|reflexivity].
  - destruct A as (X & -> & -> & -> & ->). rewrite C. cbn [catalysts_of flat_map]. rewrite app_nil_r.
    split; [apply Last_snoc_other; [apply not_rate; discriminate|exact K]|]. split; [apply Last_snoc_other; [apply not_energy; discriminate|exact E]|].
    split; [apply Last_snoc_other; [apply not_p; discriminate|exact P]|]. split; [apply Last_snoc_says, X|reflexivity].
  - destruct A as (-> & -> & -> & -> & ->). rewrite C.
    split; [apply Last_snoc_other; [apply not_rate; discriminate|exact K]|]. split; [apply Last_snoc_other; [apply not_energy; discriminate|exact E]|].
    split; [apply Last_snoc_other; [apply not_p; discriminate|exact P]|]. split; [apply Last_snoc_other; [apply not_q; discriminate|exact Q]|reflexivity].
Qed.
Lemma addOptions_written es os : Forall2 Written es os -> Forall units_ok es -> forall done m, Means done m ->
  exists m', addOptions m os = Ok m' /\ Means (done ++ es) m'.
Proof.
  intros W. induction W as [|e o es os We W IH]; intros U done m M.
  - exists m. split; [reflexivity|]. rewrite app_nil_r. exact M.
  - inversion U as [|e0 es0 Ue Us]; subst. destruct (@addOption_written e o m We Ue) as (m1 & E1 & A1).
    destruct (IH Us (done ++ [e]) m1 (@Means_snoc done e m m1 M A1)) as (m2 & E2 & A2). exists m2. split.
    + cbn [addOptions]. rewrite E1. exact E2.
    + rewrite <- app_assoc in A2. exact A2.
Qed.
Lemma Means_default : Means [] default.
Proof. unfold Means. repeat split; apply Last_nil. Qed.

(* Texts with semicolons between their entries, with any blanks around the words
   and equal signs, have the mechanism they describe. *)
Theorem C127_text_partial : forall text es, Text $";" text es -> Forall units_ok es -> exists m, mechanism text = Ok m /\ Means es m.
Proof.
  intros text es (os & T & W) U. unfold mechanism. rewrite (Tokens_split _ _ _ T).
  destruct (@addOptions_written es os W U [] default Means_default) as (m & E & M). exists m. split; [exact E|exact M].
Qed.
Print Assumptions C127_text_partial.
(* The text of a catalyst and its three parts give the same catalyst. *)
Theorem C127_catalyst_partial : forall qt s v text, Written (Catalyst qt s v) text ->
  exists c, catalyst_text text = Ok c /\ catalyst s qt (Q2R (decimal_value v)) = Ok c /\ species c = s /\ quantity c = qt /\ power c = Q2R (decimal_value v).
Proof.
  intros qt s v text W. pose proof (@addOption_written (Catalyst qt s v) text default W I) as (m & E & A).
  unfold addOption in E. destruct W as (D & J & Ns & B & T).
  assert (IC : isCatalyst text = true).
  { apply (@is_catalyst qt (s ++ $"]") text J). inversion T as [|ds w rest ws H1 H2 H3 H4 T' E1 E2]. exists ds, rest. reflexivity. }
  rewrite IC in E. destruct (catalyst_text text) as [c| |]; cbn [bind] in E; try discriminate E. injection E as <-.
  cbn in A. destruct A as (_ & _ & _ & _ & A). injection A as ->. eexists. split; [reflexivity|]. split; [|repeat split].
  unfold catalyst. assert (Q : checkCatalystQuantity qt = Ok tt) by (destruct J as [<-|[<-|[<-|[<-|[]]]]]; reflexivity). rewrite Q. reflexivity.
Qed.
Print Assumptions C127_catalyst_partial.
(* Real values are converted as rational ones are, temperatures included. *)
Theorem C127_convert_partial : forall v from to w, convert v from to = Ok w -> convertR (Q2R v) from to = Ok (Q2R w).
Proof.
  intros v from to w. unfold convert, convertR. destruct (str_eqb from to); [intros E; injection E as <-; reflexivity|].
  destruct (slope from to) as [a| |]; cbn [bind]; try discriminate. destruct (intercept from to) as [b| |]; cbn [bind]; try discriminate.
  intros E. injection E as <-. rewrite Q2R_plus, Q2R_mult. reflexivity.
Qed.
Print Assumptions C127_convert_partial.
Example C127_convert_nonvacuous : exists w, convert 25 $"celsius" $"kelvin" = Ok w.
Proof. eexists. vm_compute. reflexivity. Qed.
(* A quantity other than activities and pressures is refused. *)
Theorem C127_quantity_partial : forall qt s v, ~ In qt [$"a"; $"activity"; $"p"; $"pressure"] -> catalyst s qt v = Err.
Proof.
  intros qt s v N. unfold catalyst, checkCatalystQuantity.
  destruct (str_eqb_spec qt $"a") as [->|_]; [exfalso; apply N; cbn; tauto|].
  destruct (str_eqb_spec qt $"activity") as [->|_]; [exfalso; apply N; cbn; tauto|].
  destruct (str_eqb_spec qt $"p") as [->|_]; [exfalso; apply N; cbn; tauto|].
  destruct (str_eqb_spec qt $"pressure") as [->|_]; [exfalso; apply N; cbn; tauto|]. reflexivity.
Qed.
Print Assumptions C127_quantity_partial.

(* Texts whose units are not those of the quantity, and texts with other
   quantities, are refused; so are the texts in which more entries follow. *)
Lemma addOptions_app os os' m : addOptions m (os ++ os') = bind (addOptions m os) (fun m' => addOptions m' os').
Proof. revert m. induction os as [|o os IH]; intros m; [reflexivity|]. cbn [addOptions app]. destruct (addOption m o); cbn [bind]; [apply IH|reflexivity|reflexivity]. Qed.
Definition units_bad (e : Entry) : Prop :=
  match e with
  | Rate _ u => convertible u $"mol/(m2*s)" = Ok false
  | Energy _ u => convertible u $"kJ/mol" = Ok false
  | _ => False
  end.
Lemma addOption_bad e o m : Written e o -> units_bad e -> addOption m o = Err.
Proof.
  intros W U. unfold addOption. destruct e as [v u|v u|v|v|qt s v]; cbn [Written units_bad] in *; try contradiction.
  - destruct W as (D & N & T). rewrite (@plain_option $"logk" v [u] o D) by (first [exact T | intros ? [<-|[]]; exact N | letters]).
    rewrite (Tokens_split _ _ _ T). cbn [length Nat.eqb Nat.ltb Nat.leb orb word nth_error bind nth]. change (str_eqb $"logk" $"logk") with true. cbn [orb andb].
    unfold setRateConstant. rewrite U. reflexivity.
  - destruct W as (D & N & T). rewrite (@plain_option $"Ea" v [u] o D) by (first [exact T | intros ? [<-|[]]; exact N | letters]).
    rewrite (Tokens_split _ _ _ T). cbn [length Nat.eqb Nat.ltb Nat.leb orb word nth_error bind nth]. change (str_eqb $"Ea" $"logk") with false. change (str_eqb $"Ea" $"Ea") with true. cbn [orb andb].
    unfold setActivationEnergy. rewrite U. reflexivity.
Qed.
Lemma addOption_unknown o quantity w1 ws m : ~ In "["%char o -> Tokens $"= " o (quantity :: w1 :: ws) -> ~ In quantity [$"logk"; $"Ea"; $"p"; $"q"] -> addOption m o = Err.
Proof.
  intros B T N. unfold addOption. rewrite (@not_catalyst o B), (Tokens_split _ _ _ T). cbn [length Nat.eqb orb word nth_error bind].
  destruct (str_eqb_spec quantity $"logk") as [->|_]; [exfalso; apply N; cbn; tauto|].
  destruct (str_eqb_spec quantity $"Ea") as [->|_]; [exfalso; apply N; cbn; tauto|].
  destruct (str_eqb_spec quantity $"p") as [->|_]; [exfalso; apply N; cbn; tauto|].
  destruct (str_eqb_spec quantity $"q") as [->|_]; [exfalso; apply N; cbn; tauto|].
  cbn [orb andb]. destruct (Nat.ltb 3 _); reflexivity.
Qed.
Definition Refused (o : str) : Prop :=
  (exists e, Written e o /\ units_bad e) \/
  (exists quantity w1 ws, ~ In "["%char o /\ Tokens $"= " o (quantity :: w1 :: ws) /\ ~ In quantity [$"logk"; $"Ea"; $"p"; $"q"]).
Theorem C127_refused_partial : forall text pre os o post, Tokens $";" text (os ++ o :: post) -> Forall2 Written pre os -> Forall units_ok pre -> Refused o ->
  mechanism text = Err.
Proof.
  intros text pre os o post T W U R. unfold mechanism. rewrite (Tokens_split _ _ _ T), addOptions_app.
  destruct (@addOptions_written pre os W U [] default Means_default) as (m & -> & _). cbn [bind addOptions].
  destruct R as [(e & We & B)|(quantity & w1 & ws & B & T' & N)].
  - rewrite (@addOption_bad e o m We B). reflexivity.
  - rewrite (@addOption_unknown o quantity w1 ws m B T' N). reflexivity.
Qed.
Print Assumptions C127_refused_partial.
(* Mechanisms with different rate constants are different, and one of them is
   before the other. *)
Theorem C127_order_partial : forall a b, kappa a <> kappa b -> ~ mechanism_eq a b /\ (mechanism_lt a b \/ mechanism_lt b a) /\ ~ (mechanism_lt a b /\ mechanism_lt b a).
Proof. intros a b N. unfold mechanism_eq, mechanism_lt. split; [exact N|]. split; [destruct (Rtotal_order (kappa a) (kappa b)) as [L|[E|L]]; [left; exact L|contradiction|right; exact L]|lra]. Qed.
Print Assumptions C127_order_partial.

(* A text with semicolons, and what is in it. *)
Definition dec (neg : bool) (b a : str) : decimal := {| negative := neg; before := b; after := a |}.
Definition sample_entries : list Entry :=
  [Rate (dec true $"0" $"30") $"mol/(m2*s)"; Energy (dec false $"14" $"4") $"kJ/mol"; Catalyst $"a" $"H+" (dec false $"1" $"0")].
Definition sample_options : list str := [$"logk = -0.30 mol/(m2*s)"; $" Ea = 14.4 kJ/mol"; $" a[H+] = 1.0"].
Lemma tokens_of delims s ws : split s delims = ws -> Tokens delims s ws.
Proof. apply split_correct. Qed.
Lemma digits_of s : forallb isdigit s = true -> all_digits s.
Proof. intros H c J. rewrite forallb_forall in H. apply H, J. Qed.
Lemma sample_written : Forall2 Written sample_entries sample_options.
Proof.
  unfold sample_entries, sample_options.
  apply Forall2_cons; [|apply Forall2_cons; [|apply Forall2_cons; [|apply Forall2_nil]]]; cbn [Written].
  - split; [split; [discriminate|split; apply digits_of; reflexivity]|]. split; [letters|]. apply tokens_of. reflexivity.
  - split; [split; [discriminate|split; apply digits_of; reflexivity]|]. split; [letters|]. apply tokens_of. reflexivity.
  - split; [split; [discriminate|split; apply digits_of; reflexivity]|]. split; [left; reflexivity|]. split; [discriminate|]. split.
    + intros c [<-|[<-|[]]] [K|[K|[]]]; discriminate K.
    + apply tokens_of. reflexivity.
Qed.
Lemma sample_units : Forall units_ok sample_entries.
Proof. apply Forall_cons; [vm_compute; reflexivity|]. apply Forall_cons; [vm_compute; reflexivity|]. apply Forall_cons; [exact I|apply Forall_nil]. Qed.
Example C127_nonvacuous : Text $";" $"logk = -0.30 mol/(m2*s); Ea = 14.4 kJ/mol; a[H+] = 1.0" sample_entries /\ Forall units_ok sample_entries.
Proof. split; [|apply sample_units]. exists sample_options. split; [apply tokens_of; reflexivity|apply sample_written]. Qed.

Example C127_refused_nonvacuous : Tokens $";" $"logk = -0.30 mol/(m2*s); Ea = 14.4 m; q = 1" [$"logk = -0.30 mol/(m2*s)"; $" Ea = 14.4 m"; $" q = 1"] /\
  Refused $" Ea = 14.4 m" /\ Refused $"r = 2".
Proof.
  split; [apply tokens_of; reflexivity|]. split.
  - left. exists (Energy (dec false $"14" $"4") $"m"). split; [|vm_compute; reflexivity]. cbn [Written].
    split; [split; [discriminate|split; apply digits_of; reflexivity]|]. split; [letters|]. apply tokens_of. reflexivity.
  - right. exists $"r", $"2", []. split; [letters|]. split; [apply tokens_of; reflexivity|]. cbn [In]. intros [E|[E|[E|[E|[]]]]]; discriminate E.
Qed.

(* The same text with commas, as the documentation of the class writes it, is
   refused, and so is its other example. *)
Theorem C127_documented_refuted :
  Text $"," $"logk = -0.30 mol/(m2*s), Ea = 14.4 kJ/mol, a[H+] = 1.0" sample_entries /\ Forall units_ok sample_entries /\
  mechanism $"logk = -0.30 mol/(m2*s), Ea = 14.4 kJ/mol, a[H+] = 1.0" = Err /\
  mechanism $"logk = -5.81 mol/(m2*s), Ea = 23.5 kJ/mol" = Err.
Proof.
  split; [exists sample_options; split; [apply tokens_of; reflexivity|apply sample_written]|]. split; [apply sample_units|]. split; reflexivity.
Qed.
Print Assumptions C127_documented_refuted.
(* A blank after the last semicolon makes the text be refused. *)
Theorem C127_blank_refuted : mechanism $"p = 2; " = Err /\ exists m, mechanism $"p = 2;" = Ok m.
Proof. split; [reflexivity|]. eexists. reflexivity. Qed.
Print Assumptions C127_blank_refuted.
(* Words are read past the end of the list of words. *)
Theorem C127_words_refuted : mechanism $"logk" = UB /\ mechanism $"p =" = UB /\ mechanism $"a[]=1" = UB /\ catalyst_text $"H+=1.0" = UB.
Proof. repeat split; reflexivity. Qed.
Print Assumptions C127_words_refuted.
(* Texts that are not numbers are read as zero, and units are dropped. *)
Theorem C127_numbers_refuted :
  (exists m, mechanism $"p = two" = Ok m /\ p m = 0%R) /\ (exists m, mechanism $"p = 2 kJ/mol" = Ok m /\ p m = 2%R) /\
  (exists m, mechanism $"p = 1,5" = Ok m /\ p m = 1%R) /\ (exists c, catalyst_text $"a[H+]=one" = Ok c /\ power c = 0%R).
Proof.
  split; [|split; [|split]].
  - eexists. split; [reflexivity|]. cbn. unfold tofloat. replace (atof $"two") with 0%Q by reflexivity. apply RMicromega.Q2R_0.
  - eexists. split; [reflexivity|]. cbn. unfold tofloat. replace (atof $"2") with 2%Q by reflexivity. unfold Q2R. cbn. lra.
  - eexists. split; [reflexivity|]. cbn. unfold tofloat. replace (atof $"1,5") with 1%Q by reflexivity. unfold Q2R. cbn. lra.
  - eexists. split; [reflexivity|]. cbn. unfold tofloat. replace (atof $"one") with 0%Q by reflexivity. apply RMicromega.Q2R_0.
Qed.
Print Assumptions C127_numbers_refuted.
(* Mechanisms are compared by their rate constants only, and catalysts by their
   species only. *)
Theorem C127_equality_refuted :
  (exists a b, mechanism $"q = 2" = Ok a /\ mechanism $"q = 3; a[H+]=1" = Ok b /\ mechanism_eq a b /\ q a <> q b /\ catalysts a <> catalysts b) /\
  (exists a b, catalyst_text $"a[CO2(g)]=1" = Ok a /\ catalyst_text $"p[CO2(g)]=2" = Ok b /\ catalyst_eq a b /\ quantity a <> quantity b /\ power a <> power b).
Proof.
  split; eexists; eexists; (split; [reflexivity|]); (split; [reflexivity|]); (split; [reflexivity|]); cbn; (split; [try discriminate|try discriminate]).
  - unfold tofloat. replace (atof $"2") with 2%Q by reflexivity. replace (atof $"3") with 3%Q by reflexivity. unfold Q2R. cbn. lra.
  - unfold tofloat. replace (atof $"1") with 1%Q by reflexivity. replace (atof $"2") with 2%Q by reflexivity. unfold Q2R. cbn. lra.
Qed.
Print Assumptions C127_equality_refuted.
Theorem C127_refuted : ~ C127_statement.
Proof.
  intros (H & _). destruct C127_documented_refuted as (T & U & E & _). destruct (H $"," _ _ (or_introl eq_refl) T U) as (m & K & _). rewrite K in E. discriminate E.
Qed.
Print Assumptions C127_refuted.
