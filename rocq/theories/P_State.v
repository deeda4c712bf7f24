(* Lemmas on arrays, chemical states, mole fractions and serialization. *)
From Verif Require Import Base M_Strings M_Formula M_Chem M_Algorithms M_System M_Units S_System P_System P_Phases M_State S_State P_Algorithms.
From Coq Require Import Lqa.

(* ---- Arrays ---- *)
Lemma nth_error_skipn {A} (l : list A) : forall i j, nth_error (skipn i l) j = nth_error l (i + j).
Proof. induction l as [|a l IH]; intros [|i] j; cbn; auto. destruct j; reflexivity. Qed.
Lemma upd_length {A} (l : list A) i a : length (upd l i a) = length l.
Proof.
  unfold upd. destruct (skipn i l) eqn:E; auto. rewrite <- (firstn_skipn i l) at 2. rewrite E, !app_length. reflexivity.
Qed.
Lemma upd_nth {A} (l : list A) i a j : nth_error (upd l i a) j = if (j =? i) && (i <? length l) then Some a else nth_error l j.
Proof.
  unfold upd. destruct (skipn i l) as [|b r] eqn:E.
  - assert (L : length l <= i). { pose proof (skipn_length i l) as K. rewrite E in K. cbn in K. lia. }
    destruct (Nat.ltb_spec i (length l)); [lia|]. rewrite andb_false_r. reflexivity.
  - assert (L : i < length l). { pose proof (skipn_length i l) as K. rewrite E in K. cbn in K. lia. }
    destruct (Nat.ltb_spec i (length l)); [|lia]. rewrite andb_true_r.
    assert (F : length (firstn i l) = i) by (rewrite firstn_length; lia).
    destruct (Nat.eqb_spec j i) as [->|N].
    + rewrite nth_error_app2 by lia. rewrite F, Nat.sub_diag. reflexivity.
    + destruct (Nat.lt_ge_cases j i) as [H1|H1].
      * rewrite nth_error_app1 by lia. rewrite <- (firstn_skipn i l) at 2. rewrite nth_error_app1 by lia. reflexivity.
      * rewrite nth_error_app2 by lia. rewrite F. destruct (j - i) as [|k] eqn:K; [lia|]. cbn.
        replace j with (i + S k) by lia. rewrite <- nth_error_skipn, E. reflexivity.
Qed.
Lemma upd_Replaced {A} (l : list A) i a : i < length l -> Replaced l i a (upd l i a).
Proof.
  intro L. split; [apply upd_length|]. split.
  - rewrite upd_nth, Nat.eqb_refl. destruct (Nat.ltb_spec i (length l)); [reflexivity|lia].
  - intros j N. rewrite upd_nth. destruct (Nat.eqb_spec j i); [contradiction|reflexivity].
Qed.
Lemma upd_Forall {A} (P : A -> Prop) l i a : Forall P l -> P a -> Forall P (upd l i a).
Proof.
  intros F Pa. rewrite Forall_forall in *. intros x I. apply In_nth_error in I as (j & E). rewrite upd_nth in E.
  destruct ((j =? i) && (i <? length l)); [injection E as <-; assumption|]. apply F. eapply nth_error_In; eauto.
Qed.
Lemma list_ext {A} (l l' : list A) : (forall j, nth_error l j = nth_error l' j) -> l = l'.
Proof.
  revert l'. induction l as [|a l IH]; intros [|b l'] H; auto.
  - specialize (H 0); discriminate.
  - specialize (H 0); discriminate.
  - pose proof (H 0) as E; cbn in E; injection E as <-. f_equal. apply IH. intro j. apply (H (S j)).
Qed.
Lemma Replaced_unique {A} (l : list A) i v l1 l2 : Replaced l i v l1 -> Replaced l i v l2 -> l1 = l2.
Proof.
  intros (_ & E1 & F1) (_ & E2 & F2). apply list_ext. intro j. destruct (Nat.eq_dec j i) as [->|N]; [congruence|].
  rewrite F1, F2; auto.
Qed.
Lemma upd_comm {A} (l : list A) i j a b : i <> j -> upd (upd l i a) j b = upd (upd l j b) i a.
Proof.
  intro N. apply list_ext. intro k. rewrite !upd_nth, !upd_length.
  destruct (Nat.eqb_spec k j), (Nat.eqb_spec k i); cbn [andb]; auto. congruence.
Qed.

(* ---- Sums ---- *)
Lemma fold_Qplus l : forall a, (fold_left Qplus l a == a + Qsum l)%Q.
Proof. induction l as [|x l IH]; intro a; cbn; [ring|]. rewrite IH. ring. Qed.
Lemma sumQ_Qsum l : (sumQ l == Qsum l)%Q.
Proof. unfold sumQ. rewrite fold_Qplus. ring. Qed.
Lemma Qsum_app a b : (Qsum (a ++ b) == Qsum a + Qsum b)%Q.
Proof. induction a as [|x a IH]; cbn; [ring|]. rewrite IH. ring. Qed.
Lemma Qsum_Qsame a b : Qsame a b -> (Qsum a == Qsum b)%Q.
Proof. induction 1; cbn; [reflexivity|]. rewrite H, IHForall2. reflexivity. Qed.
Lemma sum_zip a b : (sumQ (zip_with Qmult a b) == dotQ a b)%Q.
Proof. rewrite sumQ_Qsum. reflexivity. Qed.

Lemma Qle_bool_false a b : Qle_bool a b = false <-> (b < a)%Q.
Proof.
  split; intro H.
  - apply Qnot_le_lt. intro L. apply Qle_bool_iff in L. congruence.
  - destruct (Qle_bool a b) eqn:E; auto. apply Qle_bool_iff in E. lra.
Qed.
Lemma Qltb_true a b : Qltb a b = true <-> (a < b)%Q.
Proof. unfold Qltb. rewrite negb_true_iff. apply Qle_bool_false. Qed.
Lemma Qltb_false a b : Qltb a b = false <-> (b <= a)%Q.
Proof. unfold Qltb. rewrite negb_false_iff. apply Qle_bool_iff. Qed.
Lemma Qeq_bool_false a b : Qeq_bool a b = false <-> ~ (a == b)%Q.
Proof.
  split; intro H.
  - intro E. apply Qeq_bool_iff in E. congruence.
  - destruct (Qeq_bool a b) eqn:E; auto. apply Qeq_bool_iff in E. contradiction.
Qed.

(* ---- Chemical states ---- *)
Lemma indexfn_FirstAt {A} (P : A -> Prop) (p : A -> bool) l : (forall x, p x = true <-> P x) ->
  (forall i, indexfn l p = i /\ i < length l <-> FirstAt P l i).
Proof.
  intros H i. destruct (indexfn_split l p) as [(a & x & b & -> & Px & Ha & E)|[Hn E]]; rewrite E.
  - assert (F : FirstAt P (a ++ x :: b) (length a)).
    { split.
      - exists x. rewrite nth_error_app2, Nat.sub_diag by lia. split; [reflexivity|apply H; exact Px].
      - intros j s L N Ps. rewrite nth_error_app1 in N by exact L. apply nth_error_In in N. apply Ha in N. apply H in Ps. congruence. }
    split.
    + intros [<- _]. exact F.
    + intros [(s & N & Ps) G]. destruct F as [(s' & N' & Ps') G']. split.
      * destruct (Nat.lt_trichotomy (length a) i) as [L|[L|L]]; auto; exfalso.
        -- exact (G _ _ L N' Ps').
        -- exact (G' _ _ L N Ps).
      * apply nth_error_Some. congruence.
  - split; [intros [<- L]; lia|]. intros [(s & N & Ps) _]. apply nth_error_In in N. apply Hn in N. apply H in Ps. congruence.
Qed.
Lemma index_spec sys n i : index sys n = Ok i <-> FirstAt (fun s => name s = n) (sys_species sys) i.
Proof.
  unfold index. set (l := sys_species sys).
  rewrite <- (indexfn_FirstAt (fun s => name s = n) (fun s => str_eqb (name s) n) l (fun s => str_eqb_eq (name s) n)).
  fold (findWithName l n). destruct (Nat.leb_spec (length l) (findWithName l n)) as [L|L]; split.
  - discriminate.
  - intros [<- K]. lia.
  - intro E. injection E as <-. auto.
  - intros [<- _]. reflexivity.
Qed.
Lemma index_noUB sys n : index sys n <> UB.
Proof. unfold index. destruct (_ <=? _); discriminate. Qed.
Lemma index_none sys n : index sys n = Err <-> forall s, In s (sys_species sys) -> name s <> n.
Proof.
  unfold index. set (l := sys_species sys). fold (findWithName l n). split.
  - destruct (Nat.leb_spec (length l) (findWithName l n)) as [L|L]; [|discriminate]. intros _ s I E.
    destruct (First_indexfn (fun s => name s = n) (fun s => str_eqb (name s) n) l (fun s => str_eqb_eq (name s) n)) as (F1 & F2 & F3).
    destruct (indexfn_split l (fun s => str_eqb (name s) n)) as [(a & x & b & El & Px & Ha & Ei)|[Hn Ei]].
    + unfold findWithName in L. rewrite Ei, El, app_length in L. cbn in L. lia.
    + specialize (Hn s I). apply str_eqb_neq in Hn. contradiction.
  - intro H. destruct (indexfn_split l (fun s => str_eqb (name s) n)) as [(a & x & b & El & Px & Ha & Ei)|[Hn Ei]].
    + exfalso. apply (H x); [rewrite El; apply in_elt|]. apply str_eqb_eq. exact Px.
    + unfold findWithName. rewrite Ei, Nat.leb_refl. reflexivity.
Qed.

Section Setters.
Variable ndebug : bool.
Variable sys : ChemicalSystem.

Lemma with_value_inv {A S} (m : outcome A) (st : S) k r st' : with_value m st k = (r, st') ->
  (exists a, m = Ok a /\ k a = (r, st')) \/ (m = Err /\ r = Err /\ st' = st) \/ (m = UB /\ r = UB /\ st' = st).
Proof. destruct m; cbn; intro H; [left; eauto|right; left|right; right]; injection H as <- <-; auto. Qed.
Lemma asserted_inv {S} c (st : S) k r st' : asserted ndebug c st k = (r, st') ->
  (k = (r, st') /\ (ndebug = false -> c = true)) \/ (r = UB /\ st' = st).
Proof.
  unfold asserted. destruct c, ndebug; cbn; intro H; auto.
  right. injection H as <- <-. auto.
Qed.

(* What the basic amount setter does. *)
Definition amount_set (i : nat) (v : Q) (st st' : State) : Prop :=
  st_T st' = st_T st /\ st_P st' = st_P st /\ Replaced (st_n st) i v (st_n st').

Lemma setAmount_inv i v st r st' : setSpeciesAmount ndebug sys i v st = (r, st') ->
  (r = Ok tt /\ amount_set i v st st' /\ i < length (st_n st) /\ (ndebug = false -> i < length (sys_species sys) /\ (0 <= v)%Q)) \/ (r = UB /\ st' = st).
Proof.
  unfold setSpeciesAmount. intro H. apply asserted_inv in H as [[H C1]|H]; auto. apply asserted_inv in H as [[H C2]|H]; auto.
  destruct (Nat.ltb_spec i (length (st_n st))) as [L|L]; injection H as <- <-; auto. left.
  split; [reflexivity|]. split; [|split; [exact L|]].
  - split; [reflexivity|]. split; [reflexivity|]. apply upd_Replaced. exact L.
  - intro D. split; [apply Nat.ltb_lt; auto|apply Qle_bool_iff; auto].
Qed.
Lemma setMass_inv i v st r st' : setSpeciesMass ndebug sys i v st = (r, st') ->
  (r = Ok tt /\ (exists s, nth_error (sys_species sys) i = Some s /\ ~ (molarMass s == 0)%Q /\ amount_set i (v / molarMass s) st st' /\
      (ndebug = false -> (0 < v /\ 0 <= v / molarMass s)%Q)) /\ i < length (st_n st)) \/ (r = UB /\ st' = st).
Proof.
  unfold setSpeciesMass. intro H. apply asserted_inv in H as [[H C1]|H]; auto. apply asserted_inv in H as [[H C2]|H]; auto.
  unfold molarMassAt in H. destruct (nth_error (sys_species sys) i) as [s|] eqn:E; cbn in H; [|injection H as <- <-; auto].
  unfold divide in H. destruct (Qeq_bool (molarMass s) 0) eqn:Z; cbn in H; [injection H as <- <-; auto|].
  apply setAmount_inv in H as [(-> & A & L & D)|H]; auto. left. split; [reflexivity|]. split; [|exact L].
  exists s. split; [reflexivity|]. split; [apply Qeq_bool_false; exact Z|]. split; [exact A|].
  intro K. split; [apply Qltb_true; auto|apply D; exact K].
Qed.

(* A rejected call leaves the state. *)
Lemma apply_err c st st' : apply ndebug sys c st = (Err, st') -> st' = st.
Proof.
  assert (A : forall i v st', setSpeciesAmount ndebug sys i v st = (Err, st') -> st' = st).
  { intros i v s H. apply setAmount_inv in H as [(H & _)|[_ H]]; [discriminate|exact H]. }
  assert (M : forall i v st', setSpeciesMass ndebug sys i v st = (Err, st') -> st' = st).
  { intros i v s H. apply setMass_inv in H as [(H & _)|[_ H]]; [discriminate|exact H]. }
  assert (V : forall B (m : outcome B) k s, with_value m st k = (Err, s) -> (forall a s', k a = (Err, s') -> s' = st) -> s = st).
  { intros B m k s H K. apply with_value_inv in H as [(a & _ & H)|[(_ & _ & H)|(_ & H & _)]]; [eauto|exact H|discriminate]. }
  destruct c; cbn [apply]; intro H.
  - unfold setTemperature in H. destruct (Qle_bool v 0); injection H; auto; discriminate.
  - eapply V; [exact H|]. intros a s' K. unfold setTemperature in K. destruct (Qle_bool a 0); injection K; auto; discriminate.
  - unfold setPressure in H. destruct (Qle_bool v 0); injection H; auto; discriminate.
  - unfold setPressureU in H. destruct (Qle_bool v 0); [injection H; auto|]. eapply V; [exact H|].
    intros a s' K. unfold setPressure in K. destruct (Qle_bool a 0); injection K; auto; discriminate.
  - unfold setSpeciesAmountsAll in H. destruct (Qltb v 0); injection H; auto; discriminate.
  - unfold setSpeciesAmounts in H. apply asserted_inv in H as [[H _]|[H _]]; [|discriminate]. apply asserted_inv in H as [[H _]|[H _]]; discriminate.
  - exact (A _ _ _ H).
  - eapply V; [exact H|intros a s' K; exact (A _ _ _ K)].
  - eapply V; [exact H|intros a s' K; exact (A _ _ _ K)].
  - eapply V; [exact H|]. intros a s' K. eapply V; [exact K|intros a1 s1 K1; exact (A _ _ _ K1)].
  - exact (M _ _ _ H).
  - eapply V; [exact H|intros a s' K; exact (M _ _ _ K)].
  - eapply V; [exact H|intros a s' K; exact (M _ _ _ K)].
  - eapply V; [exact H|]. intros a s' K. eapply V; [exact K|intros a1 s1 K1; exact (M _ _ _ K1)].
Qed.

(* What an accepted call does, setter by setter. *)
Definition mass_set (i : nat) (v : Q) (st st' : State) : Prop :=
  exists s a, nth_error (sys_species sys) i = Some s /\ (a * molarMass s == v)%Q /\ amount_set i a st st' /\ (ndebug = false -> (0 <= a)%Q).
Definition amount_done (i : nat) (v : Q) (st st' : State) : Prop := amount_set i v st st' /\ (ndebug = false -> (0 <= v)%Q).
Definition named (n : str) (i : nat) : Prop := FirstAt (fun s => name s = n) (sys_species sys) i.

Lemma apply_ok c st st' : apply ndebug sys c st = (Ok tt, st') ->
  match c with
  | SetT v => (0 < v)%Q /\ st' = mkState v (st_P st) (st_n st)
  | SetTU v u => exists w, convert v u $"K" = Ok w /\ (0 < w)%Q /\ st' = mkState w (st_P st) (st_n st)
  | SetP v => (0 < v)%Q /\ st' = mkState (st_T st) v (st_n st)
  | SetPU v u => exists w, convert v u $"Pa" = Ok w /\ (0 < v)%Q /\ (0 < w)%Q /\ st' = mkState (st_T st) w (st_n st)
  | SetAll v => (0 <= v)%Q /\ st' = mkState (st_T st) (st_P st) (map (fun _ => v) (st_n st))
  | SetArray l => st' = mkState (st_T st) (st_P st) l /\ (ndebug = false -> length l = length (st_n st) /\ Forall (fun x => 0 <= x)%Q l)
  | SetAmount i v => amount_done i v st st'
  | SetAmountN n v => exists i, named n i /\ amount_done i v st st'
  | SetAmountU i v u => exists w, convert v u $"mol" = Ok w /\ amount_done i w st st'
  | SetAmountNU n v u => exists i w, named n i /\ convert v u $"mol" = Ok w /\ amount_done i w st st'
  | SetMass i v => mass_set i v st st'
  | SetMassN n v => exists i, named n i /\ mass_set i v st st'
  | SetMassU i v u => exists w, convert v u $"kg" = Ok w /\ mass_set i w st st'
  | SetMassNU n v u => exists i w, named n i /\ convert v u $"kg" = Ok w /\ mass_set i w st st'
  end.
Proof.
  assert (A : forall i v s, setSpeciesAmount ndebug sys i v st = (Ok tt, s) -> amount_done i v st s).
  { intros i v s H. apply setAmount_inv in H as [(_ & H & _ & D)|[H _]]; [|discriminate]. split; [exact H|]. intro K. apply D in K. tauto. }
  assert (M : forall i v s, setSpeciesMass ndebug sys i v st = (Ok tt, s) -> mass_set i v st s).
  { intros i v s H. apply setMass_inv in H as [(_ & (x & N & Z & H & D) & _)|[H _]]; [|discriminate].
    exists x, (v / molarMass x)%Q. split; [exact N|]. split; [field; exact Z|]. split; [exact H|]. intro K. apply D in K. tauto. }
  assert (V : forall B (m : outcome B) k s, with_value m st k = (Ok tt, s) -> exists a, m = Ok a /\ k a = (Ok tt, s)).
  { intros B m k s H. apply with_value_inv in H as [H|[(_ & H & _)|(_ & H & _)]]; [exact H|discriminate|discriminate]. }
  assert (T : forall v s, setTemperature v st = (Ok tt, s) -> (0 < v)%Q /\ s = mkState v (st_P st) (st_n st)).
  { intros v s H. unfold setTemperature in H. destruct (Qle_bool v 0) eqn:E; injection H as H; [discriminate|]. split; [apply Qle_bool_false; exact E|congruence]. }
  assert (P : forall v s, setPressure v st = (Ok tt, s) -> (0 < v)%Q /\ s = mkState (st_T st) v (st_n st)).
  { intros v s H. unfold setPressure in H. destruct (Qle_bool v 0) eqn:E; injection H as H; [discriminate|]. split; [apply Qle_bool_false; exact E|congruence]. }
  destruct c; cbn [apply]; intro H.
  - apply T. exact H.
  - apply V in H as (w & E & H). exists w. split; [exact E|]. apply T. exact H.
  - apply P. exact H.
  - unfold setPressureU in H. destruct (Qle_bool v 0) eqn:E; [discriminate|]. apply V in H as (w & E' & H). exists w.
    split; [exact E'|]. split; [apply Qle_bool_false; exact E|]. apply P. exact H.
  - unfold setSpeciesAmountsAll in H. destruct (Qltb v 0) eqn:E; injection H as H; [discriminate|]. split; [apply Qltb_false; exact E|congruence].
  - unfold setSpeciesAmounts in H. apply asserted_inv in H as [[H C1]|[H _]]; [|discriminate]. apply asserted_inv in H as [[H C2]|[H _]]; [|discriminate].
    injection H as <-. split; [reflexivity|]. intro D. specialize (C1 D). specialize (C2 D). split; [symmetry; apply Nat.eqb_eq; exact C1|].
    destruct values as [|x l]; [discriminate|]. rewrite forallb_forall in C2. apply Forall_forall. intros y I. apply Qle_bool_iff. auto.
  - auto.
  - apply V in H as (i & E & H). exists i. split; [apply index_spec; exact E|auto].
  - apply V in H as (w & E & H). exists w. auto.
  - apply V in H as (i & E & H). apply V in H as (w & E' & H). exists i, w. split; [apply index_spec; exact E|auto].
  - auto.
  - apply V in H as (i & E & H). exists i. split; [apply index_spec; exact E|auto].
  - apply V in H as (w & E & H). exists w. auto.
  - apply V in H as (i & E & H). apply V in H as (w & E' & H). exists i, w. split; [apply index_spec; exact E|auto].
Qed.

(* Temperature and pressure stay positive. *)
Lemma apply_TP c st st' r : apply ndebug sys c st = (r, st') -> r <> UB -> (0 < st_T st)%Q /\ (0 < st_P st)%Q ->
  (0 < st_T st')%Q /\ (0 < st_P st')%Q.
Proof.
  intros H N V. destruct r as [[]| |]; [|apply apply_err in H; subst; exact V|congruence].
  apply apply_ok in H. destruct c; repeat match goal with
  | K : exists _, _ |- _ => destruct K
  | K : _ /\ _ |- _ => destruct K
  | K : amount_done _ _ _ _ |- _ => destruct K as [K _]
  | K : mass_set _ _ _ _ |- _ => destruct K as (? & ? & _ & _ & K & _)
  | K : amount_set _ _ _ _ |- _ => destruct K as (-> & -> & _)
  end; subst; cbn; auto.
Qed.
Lemma run_TP h : forall st st', run ndebug sys st h = Some st' -> (0 < st_T st)%Q /\ (0 < st_P st)%Q -> (0 < st_T st')%Q /\ (0 < st_P st')%Q.
Proof.
  induction h as [|c h IH]; intros st st' H V; cbn in H.
  - injection H as <-. exact V.
  - destruct (apply ndebug sys c st) as [r s] eqn:E. destruct r; try discriminate; apply IH in H; auto; eapply apply_TP; eauto; discriminate.
Qed.

(* Amounts: their number and sign. *)
Definition amounts_ok (st : State) : Prop := length (st_n st) = length (sys_species sys) /\ Forall (fun x => 0 <= x)%Q (st_n st).
(* What a caller must respect when asserts are off. *)
Definition sane (c : setter) : Prop :=
  match c with
  | SetArray l => length l = length (sys_species sys) /\ Forall (fun x => 0 <= x)%Q l
  | SetAmount _ v | SetAmountN _ v => (0 <= v)%Q
  | SetAmountU _ v u | SetAmountNU _ v u => forall w, convert v u $"mol" = Ok w -> (0 <= w)%Q
  | SetMass _ v | SetMassN _ v => (0 <= v)%Q
  | SetMassU _ v u | SetMassNU _ v u => forall w, convert v u $"kg" = Ok w -> (0 <= w)%Q
  | _ => True
  end.
Lemma amount_set_ok i v st st' : amount_set i v st st' -> (0 <= v)%Q -> amounts_ok st -> amounts_ok st'.
Proof.
  intros (_ & _ & R) V [L F]. pose proof R as (L' & E & O). split; [congruence|].
  apply Forall_forall. intros x I. apply In_nth_error in I as (j & N). destruct (Nat.eq_dec j i) as [->|D].
  - rewrite E in N. injection N as <-. exact V.
  - rewrite O in N by exact D. rewrite Forall_forall in F. apply F. eapply nth_error_In; eauto.
Qed.
Lemma apply_amounts c st st' r : apply ndebug sys c st = (r, st') -> r <> UB ->
  (ndebug = false \/ sane c /\ forall s, In s (sys_species sys) -> (0 < molarMass s)%Q) -> amounts_ok st -> amounts_ok st'.
Proof.
  intros H N S V. destruct r as [[]| |]; [|apply apply_err in H; subst; exact V|congruence].
  assert (A : forall i v, amount_done i v st st' -> (ndebug = false \/ (0 <= v)%Q) -> amounts_ok st').
  { intros i v [K D] W. apply (amount_set_ok _ _ _ _ K); [|exact V]. destruct W as [W|W]; auto. }
  assert (M : forall i v, mass_set i v st st' -> (ndebug = false \/ (0 <= v)%Q /\ forall s, In s (sys_species sys) -> (0 < molarMass s)%Q) -> amounts_ok st').
  { intros i v (s & a & E & Q & K & D) W. apply (amount_set_ok _ _ _ _ K); [|exact V]. destruct W as [W|[W P]]; auto.
    apply nth_error_In in E. specialize (P s E). destruct (Qlt_le_dec a 0) as [L|L]; [|exact L].
    exfalso. assert ((a * molarMass s < 0)%Q) by nra. lra. }
  apply apply_ok in H. destruct c; cbn [sane] in S; repeat match goal with
  | K : exists _, _ |- _ => destruct K
  | K : _ /\ _ |- _ => destruct K
  end; subst; auto.
  all: try (destruct V as [L F]; split; cbn; [auto|auto]; fail).
  - destruct V as [L F]. split; cbn; [rewrite map_length; exact L|]. apply Forall_forall. intros x I. apply in_map_iff in I as (y & <- & _). assumption.
  - destruct V as [L F]. destruct S as [S|[[S1 S2] _]]; split; cbn; auto; destruct H0; auto; congruence.
  - eapply A; [eassumption|]. tauto.
  - eapply A; [eassumption|]. tauto.
  - eapply A; [eassumption|]. destruct S as [S|[S _]]; auto.
  - eapply A; [eassumption|]. destruct S as [S|[S _]]; auto.
  - eapply M; [eassumption|]. tauto.
  - eapply M; [eassumption|]. tauto.
  - eapply M; [eassumption|]. destruct S as [S|[S W]]; auto.
  - eapply M; [eassumption|]. destruct S as [S|[S W]]; auto.
Qed.
Lemma run_amounts h : forall st st', run ndebug sys st h = Some st' ->
  (ndebug = false \/ (forall c, In c h -> sane c) /\ forall s, In s (sys_species sys) -> (0 < molarMass s)%Q) -> amounts_ok st -> amounts_ok st'.
Proof.
  induction h as [|c h IH]; intros st st' H S V; cbn in H.
  - injection H as <-. exact V.
  - destruct (apply ndebug sys c st) as [r s] eqn:E.
    assert (R : r <> UB) by (intros ->; discriminate).
    assert (V' : amounts_ok s). { eapply apply_amounts; eauto. destruct S as [S|[S W]]; auto. right. split; [apply S; left; reflexivity|exact W]. }
    assert (H' : run ndebug sys s h = Some st') by (destruct r; [exact H|exact H|congruence]).
    apply IH in H'; auto. destruct S as [S|[S W]]; auto. right. split; [|exact W]. intros c' I. apply S. right. exact I.
Qed.
Lemma new_amounts : amounts_ok (newState sys).
Proof.
  split; cbn; [apply repeat_length|]. apply Forall_forall. intros x I. apply repeat_spec in I. subst. apply Qle_refl.
Qed.
End Setters.
