(* Lemmas on the order of setters, element amounts by phase, and totals of a
   system over its phases. *)
From Verif Require Import Base M_Strings M_Formula M_Chem M_Algorithms M_System M_Units S_System P_System P_Phases M_State S_State P_Algorithms P_State P_State2 S_Props P_Props P_Strings.
From Coq Require Import Lqa Permutation.

(* ---- Setters of single species ---- *)
(* The species a call acts on. *)
Definition targeted (sys : ChemicalSystem) (c : setter) (i : nat) : Prop :=
  match c with
  | SetAmount k _ | SetAmountU k _ _ | SetMass k _ | SetMassU k _ _ => i = k
  | SetAmountN n _ | SetAmountNU n _ _ | SetMassN n _ | SetMassNU n _ _ => FirstAt (fun s => name s = n) (sys_species sys) i
  | _ => False
  end.
Definition single (c : setter) : Prop :=
  match c with SetT _ | SetTU _ _ | SetP _ | SetPU _ _ | SetAll _ | SetArray _ => False | _ => True end.

Section Order.
Variable ndebug : bool.
Variable sys : ChemicalSystem.

Definition effect (len : nat) (f : State -> call) (i : nat) : Prop :=
  (exists r, forall st, length (st_n st) = len -> f st = (r, st)) \/
  (exists v, forall st, length (st_n st) = len -> f st = (Ok tt, mkState (st_T st) (st_P st) (upd (st_n st) i v))).
Lemma effect_const len r i : effect len (fun st => (r, st)) i.
Proof. left. exists r. reflexivity. Qed.
Lemma effect_with {A} len (m : outcome A) f i : (forall a, m = Ok a -> effect len (f a) i) -> effect len (fun st => with_value m st (fun a => f a st)) i.
Proof. intro H. destruct m as [a| |]; cbn; auto; left; eexists; reflexivity. Qed.
Lemma effect_asserted len c f i : effect len f i -> effect len (fun st => asserted ndebug c st (f st)) i.
Proof. intro H. unfold asserted. destruct (c || ndebug); auto. apply effect_const. Qed.
Lemma effect_amount len i v : effect len (setSpeciesAmount ndebug sys i v) i.
Proof.
  unfold setSpeciesAmount. do 2 apply effect_asserted. destruct (Nat.ltb_spec i len) as [L|L].
  - right. exists v. intros st <-. apply Nat.ltb_lt in L. rewrite L. reflexivity.
  - left. exists UB. intros st <-. apply Nat.ltb_ge in L. rewrite L. reflexivity.
Qed.
Lemma effect_mass len i v : effect len (setSpeciesMass ndebug sys i v) i.
Proof.
  unfold setSpeciesMass. do 2 apply effect_asserted. apply effect_with. intros m _. 
  apply (effect_with len (divide v m) (fun a => setSpeciesAmount ndebug sys i a)). intros a _. apply effect_amount.
Qed.
Lemma single_effect c len : single c ->
  (exists r, forall st, length (st_n st) = len -> apply ndebug sys c st = (r, st)) \/
  (exists i v, targeted sys c i /\ forall st, length (st_n st) = len -> apply ndebug sys c st = (Ok tt, mkState (st_T st) (st_P st) (upd (st_n st) i v))).
Proof.
  assert (K : forall i f, effect len f i -> (exists r, forall st, length (st_n st) = len -> f st = (r, st)) \/
     (exists v, forall st, length (st_n st) = len -> f st = (Ok tt, mkState (st_T st) (st_P st) (upd (st_n st) i v)))) by auto.
  assert (I : forall n, (exists i, index sys n = Ok i /\ FirstAt (fun s => name s = n) (sys_species sys) i) \/ index sys n = Err).
  { intro n. destruct (index sys n) as [i| |] eqn:E; [left|right; reflexivity|exfalso; exact (index_noUB _ _ E)]. exists i. split; [reflexivity|]. apply index_spec. exact E. }
  assert (U : forall f i, effect len f i -> forall T : nat -> Prop, T i -> (exists r, forall st, length (st_n st) = len -> f st = (r, st)) \/
     (exists j v, T j /\ forall st, length (st_n st) = len -> f st = (Ok tt, mkState (st_T st) (st_P st) (upd (st_n st) j v)))).
  { intros f i [H|[v H]] T Ti; [left; exact H|right; eauto]. }
  destruct c; cbn [single apply targeted]; intro Sg; try contradiction.
  - apply (U _ i); [apply effect_amount|reflexivity].
  - unfold setSpeciesAmountN. destruct (I n) as [(i & E & F)|E]; rewrite E; cbn [with_value]; [|left; eexists; reflexivity].
    apply (U _ i); [apply effect_amount|exact F].
  - apply (U _ i); [|reflexivity]. apply (effect_with len (convert v unit $"mol") (fun a => setSpeciesAmount ndebug sys i a)). intros; apply effect_amount.
  - unfold setSpeciesAmountNU. destruct (I n) as [(i & E & F)|E]; rewrite E; cbn [with_value]; [|left; eexists; reflexivity].
    apply (U _ i); [|exact F]. apply (effect_with len (convert v unit $"mol") (fun a => setSpeciesAmount ndebug sys i a)). intros; apply effect_amount.
  - apply (U _ i); [apply effect_mass|reflexivity].
  - unfold setSpeciesMassN. destruct (I n) as [(i & E & F)|E]; rewrite E; cbn [with_value]; [|left; eexists; reflexivity].
    apply (U _ i); [apply effect_mass|exact F].
  - apply (U _ i); [|reflexivity]. apply (effect_with len (convert v unit $"kg") (fun a => setSpeciesMass ndebug sys i a)). intros; apply effect_mass.
  - unfold setSpeciesMassNU. destruct (I n) as [(i & E & F)|E]; rewrite E; cbn [with_value]; [|left; eexists; reflexivity].
    apply (U _ i); [|exact F]. apply (effect_with len (convert v unit $"kg") (fun a => setSpeciesMass ndebug sys i a)). intros; apply effect_mass.
Qed.

Definition apart (a b : setter) : Prop := forall i, targeted sys a i -> targeted sys b i -> False.
Lemma run_order h1 h2 : Permutation h1 h2 -> Forall single h1 -> ForallOrdPairs apart h1 ->
  ForallOrdPairs apart h2 /\ forall st, run ndebug sys st h1 = run ndebug sys st h2.
Proof.
  induction 1 as [|c a b P IH|c d a|a b c P1 IH1 P2 IH2]; intros Sg A.
  - split; [constructor|reflexivity].
  - inversion A as [|? ? A1 A2]; subst. inversion Sg; subst. destruct IH as [I1 I2]; auto. split.
    + constructor; [|exact I1]. apply Forall_forall. intros x Ix. rewrite Forall_forall in A1. apply A1. apply (Permutation_in x (Permutation_sym P) Ix).
    + intro st. cbn. destruct (apply ndebug sys c st) as [[]]; auto.
  - inversion A as [|? ? A1 A2]; subst. inversion A2 as [|? ? A3 A4]; subst. inversion A1 as [|? ? A5 A6]; subst.
    inversion Sg as [|? ? S1 S2]; subst. inversion S2 as [|? ? S3 S4]; subst. split.
    + constructor; [|constructor; assumption]. constructor; [|assumption]. intros i Ti Td. exact (A5 i Td Ti).
    + intro st. cbn [run]. 
      destruct (single_effect d (length (st_n st)) S1) as [(r & E1)|(i & v & Ti & E1)];
      destruct (single_effect c (length (st_n st)) S3) as [(r' & E2)|(j & w & Tj & E2)].
      * rewrite (E1 st eq_refl), (E2 st eq_refl). cbn beta iota. destruct r, r'; rewrite ?E1, ?E2 by reflexivity; reflexivity.
      * rewrite (E1 st eq_refl), (E2 st eq_refl). cbn beta iota. destruct r; rewrite ?E2, ?E1 by (cbn; rewrite ?upd_length; reflexivity); reflexivity.
      * rewrite (E1 st eq_refl), (E2 st eq_refl). cbn beta iota. destruct r'; rewrite ?E1, ?E2 by (cbn; rewrite ?upd_length; reflexivity); reflexivity.
      * rewrite (E1 st eq_refl), (E2 st eq_refl). cbn beta iota. rewrite E1, E2 by (cbn; rewrite upd_length; reflexivity). cbn.
        rewrite (upd_comm (st_n st) i j); [reflexivity|]. intros ->. exact (A5 j Ti Tj).
  - destruct IH1 as [I1 I2]; auto. destruct IH2 as [I3 I4]; auto.
    + apply Forall_forall. intros x Ix. rewrite Forall_forall in Sg. apply Sg. apply (Permutation_in x (Permutation_sym P1) Ix).
    + split; [exact I3|]. intro st. rewrite I2. apply I4.
Qed.
End Order.

(* ---- Element amounts by phase ---- *)
(* [c] is the coefficient of symbol [x] in species [s]: that of the first entry. *)
Definition Coefficient (x : str) (s : Species) (c : Q) : Prop :=
  (exists e, First (fun p : Element * Q => el_symbol (fst p) = x) (sp_elements s) (e, c)) \/ (~ In x (symbols s) /\ c = 0%Q).
Lemma el_coefficient_first l x e c : First (fun p : Element * Q => el_symbol (fst p) = x) l (e, c) -> el_coefficient l x = c.
Proof.
  intros (a & b & -> & E & N). cbn in E. induction a as [|[e0 q0] a IH]; cbn.
  - apply str_eqb_eq in E. rewrite E. reflexivity.
  - destruct (str_eqb_spec (el_symbol e0) x) as [K|K]; [exfalso; exact (N (e0, q0) (or_introl eq_refl) K)|].
    apply IH. intros y I. apply N. right. exact I.
Qed.
Lemma Coefficient_eq x s c : Coefficient x s c -> el_coefficient (sp_elements s) x = c.
Proof. intros [[e F]|[N ->]]; [exact (el_coefficient_first _ _ _ _ F)|apply el_coefficient_notin; exact N]. Qed.
Lemma map_concat {A B} (f : A -> B) ll : map f (concat ll) = concat (map (map f) ll).
Proof. induction ll as [|l ll IH]; cbn; auto. rewrite map_app. congruence. Qed.

Lemma elementAmounts_by_phase phases st e : elementAmounts (mkChemicalSystem phases) st = Ok e ->
  let sys := mkChemicalSystem phases in
  length e = S (length (sys_elements sys)) /\
  (forall j el, nth_error (sys_elements sys) j = Some el -> forall c, (forall ph s, In ph phases -> In s (ph_species ph) -> Coefficient (el_symbol el) s (c s)) ->
     exists x, nth_error e j = Some x /\ (x == grouped (map (fun ph => map c (ph_species ph)) phases) (st_n st))%Q) /\
  (exists x, nth_error e (length (sys_elements sys)) = Some x /\ (x == grouped (map (fun ph => map sp_charge (ph_species ph)) phases) (st_n st))%Q).
Proof.
  intro H. cbv zeta. apply elementAmounts_Ok in H as [L F]. cbn [mkChemicalSystem sys_elements sys_matrix sys_species] in *.
  assert (L' : length (st_n st) = length (concat (map ph_species phases))).
  { rewrite L, <- (map_length name), fixSpecies_names, makeunique_length, map_length, collectSpecies_eq. reflexivity. }
  unfold formulaMatrix in F. set (E := collectElements (collectSpecies phases)) in *.
  assert (G : forall f : Species -> Q, (dotQ (map f (collectSpecies phases)) (st_n st) == grouped (map (fun ph => map f (ph_species ph)) phases) (st_n st))%Q).
  { intro f. rewrite collectSpecies_eq, map_concat, map_map. apply grouped_concat. rewrite L'.
    clear. induction phases as [|p ps IH]; cbn; auto. rewrite !app_length, map_length. congruence. }
  split; [apply Forall2_len in F; rewrite app_length, map_length in F; cbn in F; lia|]. split.
  - intros j el N c C. 
    assert (R : nth_error (map (fun e0 => map (fun s => el_coefficient (sp_elements s) (el_symbol e0)) (collectSpecies phases)) E ++ [map sp_charge (collectSpecies phases)]) j
      = Some (map (fun s => el_coefficient (sp_elements s) (el_symbol el)) (collectSpecies phases))).
    { rewrite nth_error_app1 by (rewrite map_length; apply nth_error_Some; congruence). rewrite nth_error_map, N. reflexivity. }
    destruct (Forall2_nth _ _ _ _ _ F R) as (x & X & Q). exists x. split; [exact X|]. rewrite Q, <- G.
    assert (M : map (fun s => el_coefficient (sp_elements s) (el_symbol el)) (collectSpecies phases) = map c (collectSpecies phases)).
    { apply map_ext_in. intros s I. rewrite collectSpecies_eq in I. apply in_concat in I as (l & I1 & I2). apply in_map_iff in I1 as (ph & <- & I1).
      apply Coefficient_eq. eapply C; eauto. }
    rewrite M. reflexivity.
  - assert (R : nth_error (map (fun e0 => map (fun s => el_coefficient (sp_elements s) (el_symbol e0)) (collectSpecies phases)) E ++ [map sp_charge (collectSpecies phases)]) (length E)
      = Some (map sp_charge (collectSpecies phases))).
    { rewrite nth_error_app2 by (rewrite map_length; lia). rewrite map_length, Nat.sub_diag. reflexivity. }
    destruct (Forall2_nth _ _ _ _ _ F R) as (x & X & Q). exists x. split; [exact X|]. rewrite Q. apply G.
Qed.

(* ---- Totals ---- *)
Fixpoint tot (f : PhaseData -> Q) (i b : nat) (rest : list Phase) (p : Props) : Q :=
  match rest with
  | [] => 0
  | ph :: rest' => f (view p i b (length (ph_species ph))) + tot f (S i) (b + length (ph_species ph)) rest' p
  end%Q.
Lemma phaseProps_eq pre ph rest p : phaseProps (pre ++ ph :: rest) p (length pre) = Ok (view p (length pre) (total pre) (length (ph_species ph))).
Proof.
  unfold phaseProps. rewrite nth_error_app2, Nat.sub_diag by lia. cbn. rewrite numSpeciesUntil_spec by (rewrite app_length; lia).
  rewrite firstn_app, firstn_all, Nat.sub_diag, app_nil_r. reflexivity.
Qed.
Lemma over_phases_tot f phases p : exists v, over_phases f phases p = Ok v /\ (v == tot f 0 0 phases p)%Q.
Proof.
  unfold over_phases, sum. rewrite Nat.sub_0_r.
  enough (H : forall rest pre acc, exists v, fold_left (fun res i => bind res (fun a => bind (omap f (phaseProps (pre ++ rest) p i)) (fun b => Ok (a + b)%Q)))
     (seq (length pre) (length rest)) (Ok acc) = Ok v /\ (v == acc + tot f (length pre) (total pre) rest p)%Q).
  { destruct (H phases [] 0%Q) as (v & E & Q). exists v. split; [exact E|]. rewrite Q. change (total []) with 0. cbn [length]. ring. }
  induction rest as [|ph rest IH]; intros pre acc; cbn [length seq fold_left tot].
  - exists acc. split; [reflexivity|ring].
  - cbn [bind]. rewrite phaseProps_eq. cbn [omap bind].
    specialize (IH (pre ++ [ph]) (acc + f (view p (length pre) (total pre) (length (ph_species ph))))%Q).
    rewrite <- app_assoc in IH. cbn [app] in IH. rewrite app_length, total_app, total_cons in IH. cbn [length] in IH. change (total []) with 0 in IH.
    rewrite Nat.add_0_r, Nat.add_1_r in IH. destruct IH as (v & E & Q). exists v. split; [exact E|]. rewrite Q. ring.
Qed.

(* Values of a phase that are a multiple of the total amount. *)
Lemma mixed_amounts n x g nsum : Fractions n x -> ((Qsum n == 0)%Q -> length n = 1) -> (nsum == Qsum n)%Q -> (mixed x g * nsum == dotQ n g)%Q.
Proof.
  intros (L & F1 & F2) N1 E. unfold mixed. rewrite sum_zip, E. clear E nsum.
  destruct (Qeq_dec (Qsum n) 0) as [Z|Z].
  - specialize (F2 Z). specialize (N1 Z). destruct n as [|a [|? n]]; try discriminate. rewrite Z.
    cbn in Z. destruct g as [|y g]; cbn; [ring|]. assert (Z' : (a == 0)%Q) by lra. unfold dotQ. cbn. rewrite Z'. ring.
  - specialize (F1 Z). clear F2 N1. set (t := Qsum n) in *. clearbody t. revert n g L F1. unfold dotQ. induction x as [|a x IH]; intros [|b n] g L F; try discriminate; cbn; [ring|].
    destruct g as [|y g]; cbn; [ring|]. specialize (IH n g ltac:(injection L; auto) (fun i => F (S i))).
    specialize (F 0 a b eq_refl eq_refl). rewrite <- F, <- IH. ring.
Qed.

Lemma tot_ext f g i b rest p : (forall r1 ph r2, rest = r1 ++ ph :: r2 ->
   (f (view p (i + length r1) (b + total r1) (length (ph_species ph))) == g (view p (i + length r1) (b + total r1) (length (ph_species ph))))%Q) ->
  (tot f i b rest p == tot g i b rest p)%Q.
Proof.
  revert i b. induction rest as [|ph rest IH]; intros i b H; cbn; [reflexivity|].
  rewrite IH.
  - specialize (H [] ph rest eq_refl). change (total []) with 0 in H. cbn [length] in H. rewrite !Nat.add_0_r in H. rewrite H. reflexivity.
  - intros r1 ph' r2 E. specialize (H (ph :: r1) ph' r2). rewrite E in H. specialize (H eq_refl). rewrite total_cons in H. cbn [length] in H.
    rewrite <- plus_n_Sm in H. rewrite Nat.add_assoc in H. exact H.
Qed.
Lemma tot_plus f g a c i b rest p : (tot (fun d => a * f d + c * g d) i b rest p == a * tot f i b rest p + c * tot g i b rest p)%Q.
Proof. revert i b. induction rest as [|ph rest IH]; intros i b; cbn; [ring|]. rewrite IH. ring. Qed.

Lemma dotQ_app a1 a2 b1 b2 : length a1 = length b1 -> (dotQ (a1 ++ a2) (b1 ++ b2) == dotQ a1 b1 + dotQ a2 b2)%Q.
Proof.
  revert b1. unfold dotQ. induction a1 as [|x a1 IH]; intros [|y b1] L; try discriminate; cbn; [ring|]. rewrite IH by (injection L; auto). ring.
Qed.
Lemma skipn_add {A} (l : list A) b k : skipn (k + b) l = skipn k (skipn b l).
Proof. revert l. induction b as [|b IH]; intro l; [rewrite Nat.add_0_r; reflexivity|]. rewrite <- plus_n_Sm. destruct l; cbn; [rewrite !skipn_nil; reflexivity|apply IH]. Qed.
Lemma segment_skipn {A} (l : list A) b k m : segment l b (k + m) = segment l b k ++ segment l (b + k) m.
Proof.
  unfold segment. rewrite Nat.add_comm with (n := b). rewrite skipn_add.
  generalize (skipn b l). clear. intro s. revert s. induction k as [|k IH]; intros [|x s]; cbn; auto; [rewrite firstn_nil; reflexivity|]. f_equal. apply IH.
Qed.
Lemma tot_amounts sel A p : (forall i b k, sel (view p i b k) = segment A b k) -> length A = length (p_n p) ->
  forall rest i b, b + total rest <= length A ->
  (tot (fun d => dotQ (d_n d) (sel d)) i b rest p == dotQ (segment (p_n p) b (total rest)) (segment A b (total rest)))%Q.
Proof.
  intros H LA. induction rest as [|ph rest IH]; intros i b L; cbn [tot]; [reflexivity|].
  rewrite total_cons in *. rewrite !segment_skipn, dotQ_app by (rewrite !segment_length by lia; reflexivity).
  rewrite IH by lia. rewrite H. reflexivity.
Qed.
Lemma skipn_nth {A} (l : list A) i d : i < length l -> skipn i l = nth i l d :: skipn (S i) l.
Proof. revert i. induction l as [|x l IH]; intros [|i] L; cbn in L; try lia; [reflexivity|]. cbn [skipn nth]. apply IH. lia. Qed.
Lemma tot_excess sel X p : (forall i b k, sel (view p i b k) = nth i X 0%Q) -> 
  forall rest i b, i + length rest = length X -> length X = length (p_nsum p) ->
  (tot (fun d => d_nsum d * sel d) i b rest p == dotQ (skipn i (p_nsum p)) (skipn i X))%Q.
Proof.
  intros H. induction rest as [|ph rest IH]; intros i b L1 L2; cbn [tot length] in *.
  - rewrite !skipn_all2 by lia. reflexivity.
  - rewrite IH, H by lia. rewrite (skipn_nth (p_nsum p) i 0%Q), (skipn_nth X i 0%Q) by lia. unfold dotQ. cbn. reflexivity.
Qed.

Lemma locate phases i : i < total phases -> exists pre ph post, phases = pre ++ ph :: post /\ total pre <= i < total pre + length (ph_species ph).
Proof.
  revert i. induction phases as [|ph phases IH]; intros i L; [unfold total in L; cbn in L; lia|]. rewrite total_cons in L.
  destruct (Nat.lt_ge_cases i (length (ph_species ph))) as [K|K].
  - exists [], ph, phases. change (total []) with 0. split; [reflexivity|lia].
  - destruct (IH (i - length (ph_species ph)) ltac:(lia)) as (pre & p & post & -> & B). exists (ph :: pre), p, post. split; [reflexivity|]. rewrite total_cons. lia.
Qed.

Section Update.
Variable stdprops : Species -> Q -> Q -> outcome Std.
Variables (phases : list Phase) (acts : nat -> Q -> Q -> list Q -> outcome Act) (T P : Q) (n : list Q) (p p' : Props).
Hypothesis H : props_update stdprops phases acts T P n p = (Ok tt, p').
Hypothesis S : shaped (total phases) (length phases) p.

Lemma update_amounts : p_n p' = firstn (total phases) n.
Proof.
  destruct (props_update_ok _ _ _ _ _ _ _ _ H S) as (S' & _ & _ & L & K). destruct S' as [_ S2]. decompose [and] S2.
  apply list_ext. intro i. destruct (Nat.lt_ge_cases i (total phases)) as [B|B].
  - destruct (locate _ _ B) as (pre & ph & post & E & B1 & B2). specialize (K pre ph post E). apply ok_n in K. cbn [view d_n] in K.
    apply (f_equal (fun l => nth_error l (i - total pre))) in K. rewrite !segment_nth in K.
    destruct (Nat.ltb_spec (i - total pre) (length (ph_species ph))); [|lia]. replace (total pre + (i - total pre)) with i in K by lia.
    rewrite K. change (firstn (total phases) n) with (segment n 0 (total phases)). rewrite segment_nth. apply Nat.ltb_lt in B. rewrite B. reflexivity.
  - transitivity (@None Q); [|symmetry]; apply nth_error_None; [lia|rewrite firstn_length; lia].
Qed.

Lemma total_of sel ex A X f : (forall d, f d = (mixed (d_x d) (sel d) + ex d) * d_nsum d)%Q ->
  (forall i b k, sel (view p' i b k) = segment A b k) -> (forall i b k, ex (view p' i b k) = nth i X 0%Q) ->
  length A = total phases -> length X = length phases ->
  (tot f 0 0 phases p' == dotQ (firstn (total phases) n) A + dotQ (p_nsum p') X)%Q.
Proof.
  intros Ef Es Ex LA LX. destruct (props_update_ok _ _ _ _ _ _ _ _ H S) as (S' & _ & _ & L & K). destruct S' as [S1 S2]. decompose [and] S1. decompose [and] S2.
  rewrite (tot_ext f (fun d => 1 * dotQ (d_n d) (sel d) + 1 * (d_nsum d * ex d))%Q).
  - rewrite tot_plus, (tot_amounts sel A p') by (auto; cbn; lia). rewrite (tot_excess ex X p') by (auto; cbn; lia).
    cbn [skipn]. unfold segment. cbn [skipn]. rewrite firstn_all2 with (l := A) by lia. rewrite firstn_all2 with (l := p_n p') by lia. rewrite update_amounts. ring.
  - intros r1 ph r2 E. specialize (K r1 ph r2 E). cbn [Nat.add]. rewrite Ef.
    set (d := view p' (length r1) (total r1) (length (ph_species ph))) in *.
    rewrite Qmult_plus_distr_l, (mixed_amounts (d_n d) (d_x d) (sel d) (d_nsum d)).
    + ring.
    + rewrite (ok_n _ _ _ _ _ _ _ K). exact (ok_x _ _ _ _ _ _ _ K).
    + rewrite (ok_n _ _ _ _ _ _ _ K). intro Z. rewrite (ok_size _ _ _ _ _ _ _ K). exact (ok_nonempty _ _ _ _ _ _ _ K Z).
    + rewrite (ok_n _ _ _ _ _ _ _ K). exact (ok_nsum _ _ _ _ _ _ _ K).
Qed.
Lemma total_phase_TP f g : (forall d, d_T d = T -> d_P d = P -> (f d == g d)%Q) -> (tot f 0 0 phases p' == tot g 0 0 phases p')%Q.
Proof.
  intro E. destruct (props_update_ok _ _ _ _ _ _ _ _ H S) as (_ & _ & _ & _ & K). apply tot_ext. intros r1 ph r2 F. specialize (K r1 ph r2 F).
  apply E; [apply (ok_T _ _ _ _ _ _ _ K)|apply (ok_P _ _ _ _ _ _ _ K)].
Qed.
Lemma tot_lin f g h a b : (forall d, d_T d = T -> d_P d = P -> (f d == a * g d + b * h d)%Q) ->
  (tot f 0 0 phases p' == a * tot g 0 0 phases p' + b * tot h 0 0 phases p')%Q.
Proof. intro E. rewrite (total_phase_TP f (fun d => a * g d + b * h d)%Q E). apply tot_plus. Qed.
End Update.
