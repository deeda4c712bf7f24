(* Properties C11-C14 and C64: units. *)
From Coq Require Import Lqa.
From Verif Require Import Base M_Units S_Units P_Units.

(* ---- C11: conversion is an invertible affine change of scale ---- *)
Theorem C11_roundtrip : forall a b, convertible a b = Ok true -> forall x,
  exists y z, convert x a b = Ok y /\ convert y b a = Ok z /\ (z == x)%Q.
Proof. exact convert_roundtrip. Qed.
Print Assumptions C11_roundtrip.

Theorem C11_via : forall a b c,
  convertible a b = Ok true -> convertible b c = Ok true -> convertible a c = Ok true ->
  forall x, exists y z w, convert x a b = Ok y /\ convert y b c = Ok z /\ convert x a c = Ok w /\ (z == w)%Q.
Proof. exact convert_via. Qed.
Print Assumptions C11_via.

Theorem C11_increasing : forall a b, convertible a b = Ok true -> forall x y, (x < y)%Q ->
  exists x' y', convert x a b = Ok x' /\ convert y a b = Ok y' /\ (x' < y')%Q.
Proof. exact convert_increasing. Qed.
Print Assumptions C11_increasing.

Theorem C11_affine : forall a b, convertible a b = Ok true -> forall x y t,
  exists x' y' z', convert x a b = Ok x' /\ convert y a b = Ok y' /\
    convert (t * x + (1 - t) * y) a b = Ok z' /\ (z' == t * x' + (1 - t) * y')%Q.
Proof. exact convert_affine. Qed.
Print Assumptions C11_affine.

(* The temperature scales are the standard ones. *)
Theorem C11_temperature : forall a b sa ta sb tb x,
  In (a, (sa, ta)) temperature_scales -> In (b, (sb, tb)) temperature_scales ->
  exists y, convert x a b = Ok y /\ (y == sb * ((x - ta) / sa) + tb)%Q.
Proof. exact convert_temperature. Qed.
Print Assumptions C11_temperature.

(* Different units that are not convertible are rejected. *)
Theorem C11_inconvertible : forall a b x, a <> b -> convertible a b = Ok false -> convert x a b = Err.
Proof. exact convert_inconvertible. Qed.
Print Assumptions C11_inconvertible.

Example C11_nonvacuous :
  convertible $"kJ/(mol*K)" $"cal/(K*mmol)" = Ok true /\ convertible $"degF" $"K" = Ok true /\
  convertible $"kg" $"m" = Ok false /\
  match convert 212 $"degF" $"celsius", convert 2 $"kJ/(mol*K)" $"J/(K*mmol)" with
  | Ok y, Ok z => (y == 100)%Q /\ (z == 2)%Q
  | _, _ => False
  end.
Proof. vm_compute. repeat split; reflexivity. Qed.

(* ---- C12: composite expressions ---- *)
(* In terms of the magnitude and dimension of each symbol. *)
Theorem C12_expression : forall e1 e2, wf e1 -> wf e2 ->
  (forall s, In s (symbols e1 ++ symbols e2) -> In s all_names) ->
  isTemp (print e1) && isTemp (print e2) = false ->
  ((forall k, edim unit_dim e1 k = edim unit_dim e2 k) ->
     exists q, slope (print e1) (print e2) = Ok q /\ (q == eval unit_value e1 / eval unit_value e2)%Q) /\
  (forall k, edim unit_dim e1 k <> edim unit_dim e2 k -> slope (print e1) (print e2) = Err).
Proof. intros e1 e2 W1 W2 K. apply slope_expr; auto. intros s I. apply known_in, K, I. Qed.
Print Assumptions C12_expression.

(* Symbols whose SI definition is exact, and their table values; tesla and
   gauss are left out because the library defines them wrongly (C14). *)
Definition wrong_units : list str := [$"T"; $"tesla"; $"gauss"].
Definition si_value (s : str) : Q := match find s si_table with Some (Some q, _) => q | _ => 0%Q end.
Definition si_dim (s k : str) : Z := match find s si_table with Some (_, d) => exponent d k | None => 0%Z end.
Definition si_exact (s : str) : Prop := ~ In s wrong_units /\ exists q d, In (s, (Some q, d)) si_table.

Definition dims_eqb (a : dims) (b : list (str * Z)) : bool :=
  forallb (fun k => (dim_get a k =? exponent b k)%Z) (map fst a ++ map fst b).

Lemma exponent_out b k : ~ In k (map fst b) -> exponent b k = 0%Z.
Proof.
  induction b as [|[k' n] b IH]; cbn; auto. intro H.
  destruct (str_eqb_spec k' k); [tauto|]. apply IH. tauto.
Qed.

Lemma dims_eqb_spec a b : dims_eqb a b = true -> forall k, dim_get a k = exponent b k.
Proof.
  unfold dims_eqb. rewrite forallb_forall. intros H k.
  destruct (in_dec str_eq_dec k (map fst a ++ map fst b)) as [I|N].
  - apply Z.eqb_eq. apply (H k I).
  - rewrite in_app_iff in N. rewrite exponent_out by tauto.
    unfold dim_get. rewrite (proj2 (find_none k a)) by tauto. reflexivity.
Qed.

Definition entry_ok (p : str * (option Q * list (str * Z))) : bool :=
  let '(s, (f, d)) := p in
  match factor depth s, dimension depth s 1 [] with
  | Ok q, Ok d' => (match f with Some q' => Qeq_bool q q' | None => true end) && dims_eqb d' d
                   && forallb (fun k => existsb (str_eqb k) base_symbols) (map fst d)
  | _, _ => false
  end.
Definition mem (s : str) (l : list str) : bool := existsb (str_eqb s) l.
Lemma mem_in s l : mem s l = true <-> In s l.
Proof.
  unfold mem. rewrite existsb_exists. split.
  - intros (x & I & E). apply str_eqb_eq in E. congruence.
  - intro I. exists s. split; auto. apply str_eqb_refl.
Qed.

Lemma entries_ok : forallb (fun p => mem (fst p) wrong_units || entry_ok p) si_table = true.
Proof. vm_compute. reflexivity. Qed.
Lemma entries_cover : forallb (fun s => mem s (map fst si_table)) (map fst derivedUnitsMap) = true.
Proof. vm_compute. reflexivity. Qed.
Lemma entries_known : forallb (fun s => mem s all_names) (map fst si_table) = true.
Proof. vm_compute. reflexivity. Qed.
Lemma entries_find : forallb (fun p => match find (fst p) si_table with
  | Some (f, d) => (match f, fst (snd p) with Some a, Some b => Qeq_bool a b | None, None => true | _, _ => false end)
      && forallb (fun k => (exponent d k =? exponent (snd (snd p)) k)%Z) (map fst d ++ map fst (snd (snd p)))
  | None => false end) si_table = true.
Proof. vm_compute. reflexivity. Qed.

Lemma entry_spec s f d : In (s, (f, d)) si_table -> ~ In s wrong_units ->
  (forall k, unit_dim s k = exponent d k) /\ (forall q, f = Some q -> (unit_value s == q)%Q) /\
  (forall k, In k (map fst d) -> In k base_symbols).
Proof.
  intros I N. pose proof entries_ok as H. rewrite forallb_forall in H. specialize (H _ I). cbn [fst] in H.
  apply orb_true_iff in H as [H|H]; [apply mem_in in H; contradiction|].
  unfold entry_ok in H. unfold unit_dim, unit_value.
  destruct (factor depth s) as [q| |]; try discriminate.
  destruct (dimension depth s 1 []) as [d'| |]; try discriminate.
  apply andb_true_iff in H as [H H3]. apply andb_true_iff in H as [H1 H2]. repeat split.
  - apply dims_eqb_spec; exact H2.
  - intros q' ->. apply Qeq_bool_iff in H1. exact H1.
  - intros k Ik. rewrite forallb_forall in H3. apply mem_in, H3, Ik.
Qed.

Lemma si_exact_spec s : si_exact s -> In s all_names /\ (unit_value s == si_value s)%Q /\ forall k, unit_dim s k = si_dim s k.
Proof.
  intros (N & q & d & I). split.
  - pose proof entries_known as H. rewrite forallb_forall in H. apply mem_in, H, (in_map fst _ _ I).
  - unfold si_value, si_dim. pose proof entries_find as H. rewrite forallb_forall in H. specialize (H _ I). cbn [fst snd] in H.
    destruct (find s si_table) as [[f d']|] eqn:E; [|discriminate]. apply find_in in E.
    apply andb_true_iff in H as [H _]. destruct f as [q'|]; [|discriminate].
    destruct (entry_spec _ _ _ E N) as (A & B & _). split; auto.
Qed.

Lemma eval_compat v w e : (forall s, In s (symbols e) -> (v s == w s)%Q) -> (eval v e == eval w e)%Q.
Proof.
  induction e using uexpr_mut with
    (P0 := fun t => (forall s, In s (symbols_term t) -> (v s == w s)%Q) -> (eval_term v t == eval_term w t)%Q);
    intro H; [apply IHe; exact H| |apply H; left; reflexivity|apply IHe; exact H].
  cbn [symbols] in H.
  assert (A : (eval v e == eval w e)%Q) by (apply IHe; intros; apply H, in_or_app; auto).
  assert (B : (eval_term v t == eval_term w t)%Q) by (apply IHe0; intros; apply H, in_or_app; auto).
  destruct div.
  - change (eval v e / eval_term v t == eval w e / eval_term w t)%Q. rewrite A, B. reflexivity.
  - change (eval v e * eval_term v t == eval w e * eval_term w t)%Q. rewrite A, B. reflexivity.
Qed.

Lemma edim_compat v w e k : (forall s, In s (symbols e) -> v s k = w s k) -> edim v e k = edim w e k.
Proof.
  induction e using uexpr_mut with
    (P0 := fun t => (forall s, In s (symbols_term t) -> v s k = w s k) -> edim_term v t k = edim_term w t k);
    intro H; [apply IHe; exact H| |apply H; left; reflexivity|apply IHe; exact H].
  cbn [symbols] in H.
  assert (A : edim v e k = edim w e k) by (apply IHe; intros; apply H, in_or_app; auto).
  assert (B : edim_term v t k = edim_term w t k) by (apply IHe0; intros; apply H, in_or_app; auto).
  destruct div.
  - change (edim v e k - edim_term v t k = edim w e k - edim_term w t k)%Z. congruence.
  - change (edim v e k + edim_term v t k = edim w e k + edim_term w t k)%Z. congruence.
Qed.

(* With the values taken from the independent SI table. *)
Theorem C12_si : forall e1 e2, wf e1 -> wf e2 ->
  (forall s, In s (symbols e1 ++ symbols e2) -> si_exact s) ->
  isTemp (print e1) && isTemp (print e2) = false ->
  ((forall k, edim si_dim e1 k = edim si_dim e2 k) ->
     exists q, slope (print e1) (print e2) = Ok q /\ (q == eval si_value e1 / eval si_value e2)%Q) /\
  (forall k, edim si_dim e1 k <> edim si_dim e2 k -> slope (print e1) (print e2) = Err).
Proof.
  intros e1 e2 W1 W2 K T.
  assert (D1 : forall k, edim unit_dim e1 k = edim si_dim e1 k)
    by (intro k; apply edim_compat; intros s I; apply si_exact_spec, K, in_or_app; auto).
  assert (D2 : forall k, edim unit_dim e2 k = edim si_dim e2 k)
    by (intro k; apply edim_compat; intros s I; apply si_exact_spec, K, in_or_app; auto).
  destruct (C12_expression e1 e2 W1 W2) as [A B]; auto.
  { intros s I. apply si_exact_spec, K, I. }
  split.
  - intro D. destruct A as (q & E & Q); [intro k; rewrite D1, D2; apply D|]. exists q. split; auto.
    rewrite Q. rewrite (eval_compat unit_value si_value e1), (eval_compat unit_value si_value e2); [reflexivity| |];
      intros s I; apply si_exact_spec, K, in_or_app; auto.
  - intros k N. apply (B k). rewrite D1, D2. exact N.
Qed.
Print Assumptions C12_si.

(* kJ/(mol*(km/h)) against cal/mmol/mps: nested parentheses and left-to-right quotients. *)
Definition ex_e1 : uexpr :=
  UOp (UTerm (USym $"kJ")) true (UPar (UOp (UTerm (USym $"mol")) false (UPar (UOp (UTerm (USym $"km")) true (USym $"h"))))).
Definition ex_e2 : uexpr :=
  UOp (UOp (UTerm (USym $"cal")) true (USym $"mmol")) true (USym $"mps").
Example C12_nonvacuous :
  print ex_e1 = $"kJ/(mol*(km/h))" /\ print ex_e2 = $"cal/mmol/mps" /\ wf ex_e1 /\ wf ex_e2 /\
  (forall s, In s (symbols ex_e1 ++ symbols ex_e2) -> si_exact s) /\
  (eval si_value ex_e1 == 3600000)%Q /\ (eval si_value ex_e2 == 4184000)%Q /\
  match slope (print ex_e1) (print ex_e2) with Ok q => (q == 3600000 / 4184000)%Q | _ => False end.
Proof.
  repeat match goal with |- _ /\ _ => split end; try (vm_compute; reflexivity).
  - intros s H. cbn [symbols symbols_term ex_e1 app In] in H.
    repeat destruct H as [<-|H]; try contradiction; split; try discriminate; vm_compute; reflexivity.
  - intros s H. cbn [symbols symbols_term ex_e2 app In] in H.
    repeat destruct H as [<-|H]; try contradiction; split; try discriminate; vm_compute; reflexivity.
  - intros s H.
    assert (G : exists q d, find s si_table = Some (Some q, d)).
    { cbn [symbols symbols_term ex_e1 ex_e2 app In] in H. 
      repeat destruct H as [<-|H]; try contradiction; vm_compute; eauto. }
    split.
    + rewrite <- mem_in. cbn [symbols symbols_term ex_e1 ex_e2 app In] in H.
      repeat destruct H as [<-|H]; try contradiction; vm_compute; discriminate.
    + destruct G as (q & d & E). exists q, d. apply find_in; exact E.
Qed.

(* ---- C13: malformed unit strings ---- *)
Definition well_formed (a : str) : Prop :=
  exists e, wf e /\ (forall s, In s (symbols e) -> In s all_names) /\ print e = a.

(* Converting from or to a string that is not a unit expression over known
   units throws. *)
Definition C13_statement : Prop :=
  forall a b x, ~ well_formed a -> convert x a b = Err /\ convert x b a = Err.

Lemma no_juxtaposition : ~ well_formed $"kg(m)".
Proof.
  intros (e & W & _ & P). destruct e as [[s|e]|e div t]; cbn [print print_term] in P.
  - subst. destruct (W _ (or_introl eq_refl)) as [_ H]. vm_compute in H. discriminate.
  - discriminate.
  - assert (I : In (opchar div) $"kg(m)") by (rewrite <- P; apply in_or_app; right; left; reflexivity).
    destruct div; cbn in I; repeat destruct I as [I|I]; try discriminate; contradiction.
Qed.

(* "kg(m)" is silently read as "g". *)
Theorem C13_interpreted_refuted : ~ C13_statement /\
  ~ well_formed $"kg(m)" /\ forall x, exists y, convert x $"kg(m)" $"g" = Ok y /\ (y == x)%Q.
Proof.
  assert (H : forall x, exists y, convert x $"kg(m)" $"g" = Ok y /\ (y == x)%Q).
  { intro x. unfold convert. replace (str_eqb $"kg(m)" $"g") with false by reflexivity.
    replace (slope $"kg(m)" $"g") with (@Ok Q 1%Q) by (vm_compute; reflexivity).
    replace (intercept $"kg(m)" $"g") with (@Ok Q 0%Q) by (vm_compute; reflexivity).
    cbn [bind]. eexists. split; [reflexivity|]. ring. }
  split; [|split; [exact no_juxtaposition|exact H]].
  intro S. destruct (S $"kg(m)" $"g" 1%Q no_juxtaposition) as [E _].
  destruct (H 1%Q) as (y & Ey & _). congruence.
Qed.
Print Assumptions C13_interpreted_refuted.

(* The empty string, a leading operator and empty parentheses read outside
   the string or dereference a null pointer; an unknown unit converts to
   itself without an exception. *)
Theorem C13_bounds_refuted :
  (forall x, convert x [] $"m" = UB) /\ (forall x, convert x $"/s" $"Hz" = UB) /\ (forall x, convert x $"m*()" $"m" = UB) /\
  (forall x, known $"foo" = false /\ convert x $"foo" $"foo" = Ok x).
Proof. repeat split. Qed.
Print Assumptions C13_bounds_refuted.

(* What holds.  (1) Any well-formed expression with an unknown symbol is
   rejected in conversions to and from any other expression. *)
Theorem C13_unknown_partial : forall e1 e2 s x, wf e1 -> wf e2 -> print e1 <> print e2 ->
  In s (symbols e1 ++ symbols e2) -> ~ In s all_names -> convert x (print e1) (print e2) = Err.
Proof.
  intros e1 e2 s x W1 W2 N I K. unfold convert. rewrite (proj2 (str_eqb_neq _ _) N).
  rewrite (slope_unknown e1 e2 s); auto. apply not_true_iff_false. rewrite known_in. exact K.
Qed.
Print Assumptions C13_unknown_partial.

(* (2) Every string without parentheses is a sequence of words and operators;
   it is safe exactly when the first word is not empty, and rejected when some
   word is not a known unit. *)
Theorem C13_flat_partial :
  (forall a, (forall c, In c a -> c <> "("%char /\ c <> ")"%char) ->
     exists w rest, a = print_flat w rest /\ plain w /\ Forall (fun p => plain (snd p)) rest) /\
  (forall w rest, plain w -> Forall (fun p => plain (snd p)) rest ->
     (parseUnit (print_flat w rest) = UB <-> w = [])) /\
  (forall w rest b pb s x, plain w -> Forall (fun p => plain (snd p)) rest -> w <> [] ->
     In s (w :: map snd rest) -> ~ In s all_names -> parseUnit b = Ok pb -> print_flat w rest <> b ->
     convert x (print_flat w rest) b = Err /\ convert x b (print_flat w rest) = Err).
Proof.
  split; [exact flat_surjective|split].
  - intros w rest P F. split.
    + intro U. destruct w as [|c w]; auto. rewrite parse_flat in U; auto; discriminate.
    + intros ->. apply parse_flat_empty; exact F.
  - intros w rest b pb s x P F N I K E D.
    assert (U : known s = false) by (apply not_true_iff_false; rewrite known_in; exact K).
    destruct (flat_unknown w rest b pb s P F N I U E) as [A B].
    unfold convert. rewrite A, B. cbn [bind].
    rewrite (proj2 (str_eqb_neq (print_flat w rest) b)), (proj2 (str_eqb_neq b (print_flat w rest))); auto.
Qed.
Print Assumptions C13_flat_partial.

Example C13_nonvacuous :
  wf (UOp (UTerm (USym $"kg")) true (UPar (UTerm (USym $"foo")))) /\ ~ In $"foo" all_names /\
  print_flat $"kg" [(true, $"m"); (false, [])] = $"kg/m*" /\ ~ In [] all_names /\
  convert 1 $"kg/m*" $"kg" = Err.
Proof.
  split; [|split; [|split; [reflexivity|split]]].
  - intros s H. cbn in H. repeat destruct H as [<-|H]; try contradiction; split; try discriminate; reflexivity.
  - rewrite <- mem_in. vm_compute. discriminate.
  - rewrite <- mem_in. vm_compute. discriminate.
  - vm_compute. reflexivity.
Qed.

(* ---- C14: the built-in table ---- *)
Definition C14_statement : Prop :=
  (forall s, In s (map fst derivedUnitsMap) -> exists f d, In (s, (f, d)) si_table) /\
  (forall s, In s all_names -> exists q d, factor depth s = Ok q /\ (0 < q)%Q /\ dimension depth s 1 [] = Ok d) /\
  (forall s f d, In (s, (f, d)) si_table ->
     (forall k, unit_dim s k = exponent d k) /\ (forall q, f = Some q -> (unit_value s == q)%Q) /\
     (forall k, In k (map fst d) -> In k base_symbols)).

(* tesla = Wb/m2 has base dimensions g s-2 A-1; the table defines Wb*m2. *)
Theorem C14_table_refuted : ~ C14_statement /\ unit_dim $"T" $"m" = 4%Z /\ convertible $"T" $"Wb/m2" = Ok false.
Proof.
  assert (E : unit_dim $"T" $"m" = 4%Z) by (vm_compute; reflexivity).
  split; [|split; [exact E|vm_compute; reflexivity]].
  intros (_ & _ & H). 
  assert (I : In ($"T", (Some (1000 # 1)%Q, [($"g", 1%Z); ($"s", (-2)%Z); ($"A", (-1)%Z)])) si_table).
  { apply find_in. vm_compute. reflexivity. }
  destruct (H _ _ _ I) as (D & _). specialize (D $"m"). rewrite E in D. vm_compute in D. discriminate.
Qed.
Print Assumptions C14_table_refuted.

Theorem C14_table_partial :
  (forall s, In s (map fst derivedUnitsMap) -> exists f d, In (s, (f, d)) si_table) /\
  (forall s, In s all_names -> exists q d, factor depth s = Ok q /\ (0 < q)%Q /\ dimension depth s 1 [] = Ok d) /\
  (forall s f d, In (s, (f, d)) si_table -> s <> $"T" -> s <> $"tesla" -> s <> $"gauss" ->
     (forall k, unit_dim s k = exponent d k) /\ (forall q, f = Some q -> (unit_value s == q)%Q) /\
     (forall k, In k (map fst d) -> In k base_symbols)).
Proof.
  split; [|split].
  - intros s I. pose proof entries_cover as H. rewrite forallb_forall in H. specialize (H _ I).
    apply mem_in in H. apply in_map_iff in H as ([s' [f d]] & E & J). cbn in E. subst. eauto.
  - intros s I. apply known_in in I. destruct (factor_known s I) as [A B].
    destruct (dimension_known s 1 [] I) as (d & E & _). eauto 6.
  - intros s f d I N1 N2 N3. apply entry_spec; auto. intro H. cbn [wrong_units In] in H. intuition congruence.
Qed.
Print Assumptions C14_table_partial.

Example C14_nonvacuous : In ($"farad", (Some (1 # 1000)%Q, [($"g", (-1)%Z); ($"m", (-2)%Z); ($"s", 4%Z); ($"A", 2%Z)])) si_table.
Proof. apply find_in. vm_compute. reflexivity. Qed.

(* ---- C64: convertibility is an equivalence that only depends on dimension ---- *)
Definition accepted (a : str) : Prop := exists pa, parseUnit a = Ok pa /\ du_known pa = true.

Definition C64_statement : Prop :=
  (forall a, accepted a -> convertible a a = Ok true) /\
  (forall a b, convertible a b = Ok true -> convertible b a = Ok true) /\
  (forall a b c, convertible a b = Ok true -> convertible b c = Ok true -> convertible a c = Ok true).

(* degC ~ K ~ (K), but degC is not convertible to (K); likewise J/kelvin is
   not convertible to J/K, and 1/s not to Hz. *)
Theorem C64_transitive_refuted : ~ C64_statement /\
  convertible $"degC" $"K" = Ok true /\ convertible $"K" $"(K)" = Ok true /\ convertible $"degC" $"(K)" = Ok false /\
  convertible $"kelvin" $"K" = Ok true /\ convertible $"J/kelvin" $"J/K" = Ok false /\
  convertible $"1/s" $"Hz" = Ok false.
Proof.
  assert (A : convertible $"degC" $"K" = Ok true) by reflexivity.
  assert (B : convertible $"K" $"(K)" = Ok true) by (vm_compute; reflexivity).
  assert (C : convertible $"degC" $"(K)" = Ok false) by (vm_compute; reflexivity).
  split; [intros (_ & _ & T); rewrite (T _ _ _ A B) in C; discriminate|].
  split; [exact A|]. split; [exact B|]. split; [exact C|]. split; [reflexivity|]. split; vm_compute; reflexivity.
Qed.
Print Assumptions C64_transitive_refuted.

Theorem C64_equivalence_partial :
  (forall a, accepted a -> convertible a a = Ok true) /\
  (forall a b, convertible a b = Ok true -> convertible b a = Ok true) /\
  (forall a b c, isTemp a = false -> isTemp b = false -> isTemp c = false ->
     convertible a b = Ok true -> convertible b c = Ok true -> convertible a c = Ok true).
Proof.
  split; [|split].
  - intros a (pa & E & K). destruct (isTemp a && isTemp a) eqn:T.
    + unfold convertible. rewrite T. reflexivity.
    + apply convertible_du; auto. exists pa, pa. auto 10.
  - exact convertible_sym.
  - intros a b c A B C H1 H2. apply convertible_du in H1 as (pa & pb & Ea & Eb & Ka & Kb & D1); [|rewrite A; reflexivity].
    apply convertible_du in H2 as (pb' & pc & Eb' & Ec & Kb' & Kc & D2); [|rewrite B; reflexivity].
    rewrite Eb in Eb'. injection Eb' as <-.
    apply convertible_du; [rewrite A; reflexivity|]. exists pa, pc. repeat split; auto. intro k. rewrite D1, D2. reflexivity.
Qed.
Print Assumptions C64_equivalence_partial.

Example C64_nonvacuous : accepted $"kg*m/(s*s)" /\ convertible $"kg*m/(s*s)" $"N" = Ok true /\ convertible $"N" $"J/m" = Ok true.
Proof. split; [|split; vm_compute; reflexivity]. eexists. split; vm_compute; reflexivity. Qed.
