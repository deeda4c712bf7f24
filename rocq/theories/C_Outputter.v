(* C135: tables printed during calculations. *)
From Verif Require Import Base M_Strings M_Formula M_Chem S_Strings P_Strings P_Printing P_Ostream M_Outputter.
Local Open Scope nat_scope.

(* ---- Specification ---- *)
(* A line divided into cells of given widths, each with a text and blanks after it. *)
Definition shows (text : str) (w : nat) (cell : str) : Prop := length cell = w /\ exists k, cell = text ++ repeat " "%char k.
Definition divided (line : str) (texts : list str) (ws : list nat) : Prop :=
  exists cs, line = concat cs /\ length cs = length texts /\ length ws = length texts /\
  forall i t w c, nth_error texts i = Some t -> nth_error ws i = Some w -> nth_error cs i = Some c -> shows t w c.
(* Two lines with cells of the same widths. *)
Definition aligned (line1 : str) (texts1 : list str) (line2 : str) (texts2 : list str) : Prop :=
  exists ws, divided line1 texts1 ws /\ divided line2 texts2 ws.
(* Values that fit into the columns of their names, and separators below separators. *)
Definition fits (o : Options) (entries values : list str) : Prop :=
  Forall2 (fun e v => (e = op_separator o <-> v = op_separator o) /\ (e <> op_separator o -> length v <= Nat.max (op_width o) (length e + 4))) entries values.
Definition active (t : Outputter) : Prop := op_active (t_options t) = true.
(* The number of values before [i] that are not separators. *)
Definition proper_before (sep : str) (values : list str) (i : nat) : nat := length (List.filter (fun v => negb (str_eqb v sep)) (firstn i values)).
(* The calls that print a row. *)
Definition row (values : list str) : list Call := map AddValue values ++ [OutputState].

(* A table is right if its rows are aligned with the names, and a row is what was
   added since the row before, whether that was printed or not. *)
Definition C135_statement : Prop :=
  (forall t h line t', active t -> nth_error (outputHeader t) 1 = Some h -> outputState t = Ok ([line], t') -> fits (t_options t) (t_entries t) (t_values t) ->
     aligned h (t_entries t) line (t_values t)) /\
  (forall t r1 r2 o, t_values t = [] -> length r1 = length (t_entries t) -> length r2 = length (t_entries t) -> op_active o = true ->
     exists ls l2 t', calls (row r1 ++ SetOptions o :: row r2) t = Ok (ls ++ [l2], t')).

(* ---- Cells ---- *)
Lemma colwidth_max w s : colwidth w s = Nat.max w (length s + 4).
Proof. unfold colwidth. destruct (Nat.ltb_spec (length s + 4) w); lia. Qed.
Lemma padded_shows w s : shows s (Nat.max (length s) w) (padded w s).
Proof. unfold padded. split; [rewrite app_length, repeat_length; lia|eauto]. Qed.
Lemma plain_shows s : shows s (length s) s.
Proof. split; auto. exists 0. cbn. rewrite app_nil_r. reflexivity. Qed.
Lemma divided_nil : divided [] [] [].
Proof. exists []. repeat split; auto; destruct i; discriminate. Qed.
Lemma divided_cons t w c line texts ws : shows t w c -> divided line texts ws -> divided (c ++ line) (t :: texts) (w :: ws).
Proof.
  intros S (cs & -> & L & L' & H). exists (c :: cs). split; [reflexivity|]. split; [cbn; auto|]. split; [cbn; auto|].
  intros [|i] t' w' c' Ht Hw Hc; cbn in *. { injection Ht as <-. injection Hw as <-. injection Hc as <-. auto. } eapply H; eauto.
Qed.
Lemma eqb_spec s t : reflect (s = t) (str_eqb s t).
Proof. destruct (str_eqb s t) eqn:E; constructor. { apply str_eqb_eq; auto. } intro X. apply str_eqb_eq in X. congruence. Qed.
Definition entry_width (o : Options) (e : str) : nat := if str_eqb e (op_separator o) then length (op_separator o) else Nat.max (op_width o) (length e + 4).
Lemma names_divided o es : divided (names o es) es (map (entry_width o) es).
Proof.
  unfold names. induction es as [|e es IH]; cbn [map concat]. { apply divided_nil. } apply divided_cons; auto. unfold entry_width.
  destruct (eqb_spec e (op_separator o)) as [->|N]. { apply plain_shows. } rewrite colwidth_max. pose proof (padded_shows (Nat.max (op_width o) (length e + 4)) e) as P. rewrite Nat.max_r in P by lia. exact P.
Qed.

(* The three lines of a header have cells of the same widths; the first and the last
   have bars and separators. *)
Theorem C135_header_partial : forall t, active t -> exists bar h ws, outputHeader t = [bar; h; bar] /\ divided h (t_entries t) ws /\
  exists cs, bar = concat cs /\ map (@length ascii) cs = ws /\
  forall i e, nth_error (t_entries t) i = Some e ->
    nth_error ws i = Some (if str_eqb e (op_separator (t_options t)) then length e else Nat.max (op_width (t_options t)) (length e + 4)) /\
    exists c, nth_error cs i = Some c /\ (e = op_separator (t_options t) -> c = e) /\ (e <> op_separator (t_options t) -> Forall (eq "="%char) c).
Proof.
  intros t A. unfold outputHeader. cbv zeta. rewrite A. set (o := t_options t). exists (bars o (t_entries t)), (names o (t_entries t)), (map (entry_width o) (t_entries t)).
  split; [reflexivity|]. split; [apply names_divided|].
  exists (map (fun e => if str_eqb e (op_separator o) then op_separator o else barstr (op_width o) e) (t_entries t)). split; [reflexivity|]. split.
  - rewrite map_map. apply map_ext. intro e. unfold entry_width. destruct (str_eqb e (op_separator o)); auto. unfold barstr. rewrite repeat_length. apply colwidth_max.
  - intros i e E. rewrite !nth_error_map, E. cbn [option_map]. split.
    + f_equal. unfold entry_width. destruct (eqb_spec e (op_separator o)) as [->|N]; auto.
    + eexists. split; [reflexivity|]. destruct (eqb_spec e (op_separator o)) as [->|N]; split; intro X; try contradiction; auto.
      unfold barstr. apply Forall_forall. intros x I. apply repeat_spec in I. auto.
Qed.
Print Assumptions C135_header_partial.

(* The widths of a row: the k-th value that is not a separator has the width of the
   k-th entry, counting separators among the entries. *)
Lemma cells_divided o : forall values entry line, cells o entry values = Ok line -> exists ws, divided line values ws /\
  forall i v, nth_error values i = Some v ->
    (v = op_separator o -> nth_error ws i = Some (length v)) /\
    (v <> op_separator o -> exists e, nth_error entry (proper_before (op_separator o) values i) = Some e /\
       nth_error ws i = Some (Nat.max (length v) (Nat.max (op_width o) (length e + 4)))).
Proof.
  induction values as [|v vs IH]; intros entry line H; cbn [cells] in H.
  - injection H as <-. exists []. split; [apply divided_nil|]. intros [|i] v; discriminate.
  - destruct (eqb_spec v (op_separator o)) as [->|N].
    + destruct (cells o entry vs) as [l| |] eqn:E; try discriminate. cbn in H. injection H as <-. destruct (IH _ _ E) as (ws & D & W).
      exists (length (op_separator o) :: ws). split. { apply divided_cons; auto. apply plain_shows. }
      intros [|i] v Hv; cbn in Hv. { injection Hv as <-. split; [reflexivity|contradiction]. }
      destruct (W i v Hv) as [W1 W2]. split; auto. intro Nv. destruct (W2 Nv) as (e & E1 & E2). exists e. split; auto.
      unfold proper_before. cbn [firstn List.filter]. destruct (eqb_spec (op_separator o) (op_separator o)); [|contradiction]. exact E1.
    + destruct entry as [|e entry]; [discriminate|]. destruct (cells o entry vs) as [l| |] eqn:E; try discriminate. cbn in H. injection H as <-. destruct (IH _ _ E) as (ws & D & W).
      exists (Nat.max (length v) (Nat.max (op_width o) (length e + 4)) :: ws). split. { apply divided_cons; auto. rewrite <- colwidth_max. apply padded_shows. }
      intros [|i] v' Hv; cbn in Hv. { injection Hv as <-. split; [contradiction|]. intros _. exists e. auto. }
      destruct (W i v' Hv) as [W1 W2]. split; auto. intro Nv. destruct (W2 Nv) as (e' & E1 & E2). exists e'. split; auto.
      unfold proper_before. cbn [firstn List.filter]. destruct (eqb_spec v (op_separator o)); [contradiction|]. exact E1.
Qed.
Lemma outputState_inv t line t' : active t -> outputState t = Ok ([line], t') -> length (t_entries t) = length (t_values t) /\ cells (t_options t) (t_entries t) (t_values t) = Ok line /\
  t' = mkOutputter (t_entries t) [] (t_options t).
Proof.
  intros A. unfold outputState. cbv zeta. rewrite A. destruct (Nat.eqb_spec (length (t_entries t)) (length (t_values t))) as [L|]; [|discriminate].
  destruct (cells _ _ _) as [l| |]; try discriminate. cbn. intro H. injection H as <- <-. auto.
Qed.
Theorem C135_columns_partial : forall t line t', active t -> outputState t = Ok ([line], t') ->
  let sep := op_separator (t_options t) in
  exists ws, divided line (t_values t) ws /\ forall i v, nth_error (t_values t) i = Some v ->
    (v = sep -> nth_error ws i = Some (length v)) /\
    (v <> sep -> exists e, nth_error (t_entries t) (proper_before sep (t_values t) i) = Some e /\
       nth_error ws i = Some (Nat.max (length v) (Nat.max (op_width (t_options t)) (length e + 4)))).
Proof. intros t line t' A H. apply outputState_inv in H as (_ & H & _); auto. apply cells_divided. exact H. Qed.
Print Assumptions C135_columns_partial.

Lemma widths_same (es vs : list str) (ws1 ws2 : list nat) : length es = length vs -> length ws1 = length es -> length ws2 = length vs ->
  (forall i, i < length es -> nth_error ws1 i = nth_error ws2 i) -> ws1 = ws2.
Proof.
  intros L L1 L2 H. assert (X : length ws1 = length ws2) by lia. rewrite <- L1 in H. clear L L1 L2. revert ws2 X H.
  induction ws1 as [|a ws1 IH]; intros [|b ws2] X H; cbn in X; try lia; auto. f_equal. { specialize (H 0 ltac:(cbn; lia)). cbn in H. congruence. }
  apply IH; [lia|]. intros i Hi. apply (H (S i)). cbn. lia.
Qed.
(* Rows are aligned if there are no separators, or if all names are short. *)
Lemma F2_at {A B} (R : A -> B -> Prop) l r : Forall2 R l r -> forall i b, nth_error r i = Some b -> exists a, nth_error l i = Some a /\ R a b.
Proof. induction 1; intros [|i] b H'; cbn in H' |- *; try discriminate. { injection H' as ->. eauto. } eauto. Qed.
Lemma no_seps sep vs i : ~ In sep vs -> i <= length vs -> proper_before sep vs i = i.
Proof.
  intros N L. unfold proper_before. assert (E : List.filter (fun v => negb (str_eqb v sep)) (firstn i vs) = firstn i vs).
  { assert (Nf : ~ In sep (firstn i vs)). { intro I. apply N. rewrite <- (firstn_skipn i vs). apply in_or_app. auto. }
    induction (firstn i vs) as [|v l IH]; cbn; auto. cbn in Nf. destruct (eqb_spec v sep); [tauto|]. cbn. f_equal. apply IH. tauto. }
  rewrite E, firstn_length. lia.
Qed.
Theorem C135_aligned_partial : forall t h line t', active t -> nth_error (outputHeader t) 1 = Some h -> outputState t = Ok ([line], t') -> fits (t_options t) (t_entries t) (t_values t) ->
  ~ In (op_separator (t_options t)) (t_entries t) \/ (forall e, In e (t_entries t) -> length e + 4 <= op_width (t_options t)) ->
  aligned h (t_entries t) line (t_values t).
Proof.
  intros t h line t' A Hh H F C. unfold outputHeader in Hh. cbv zeta in Hh. rewrite A in Hh. cbn in Hh. injection Hh as <-.
  apply outputState_inv in H as (L & H & _); auto. destruct (cells_divided _ _ _ _ H) as (ws & D & W). set (o := t_options t) in *.
  exists ws. split; auto. replace ws with (map (entry_width o) (t_entries t)). { apply names_divided. }
  destruct D as (cs & _ & _ & Lw & _). apply (widths_same (t_entries t) (t_values t)); auto. { apply map_length. }
  intros i Li. destruct (nth_error (t_values t) i) as [v|] eqn:V. 2: { apply nth_error_None in V. lia. }
  destruct (F2_at _ _ _ F i v V) as (e & E & S & Fe). rewrite nth_error_map, E. cbn [option_map]. destruct (W i v V) as [W1 W2]. unfold entry_width.
  destruct (eqb_spec e (op_separator o)) as [->|Ne].
  - rewrite W1 by tauto. f_equal. symmetry. f_equal. tauto.
  - assert (Nv : v <> op_separator o) by tauto. destruct (W2 Nv) as (e' & E' & ->). f_equal. specialize (Fe Ne).
    destruct C as [C|C].
    + rewrite no_seps in E'.
      * assert (e' = e) by congruence. subst e'. lia.
      * intro I. apply In_nth_error in I as (j & J). destruct (F2_at _ _ _ F j _ J) as (e2 & E2 & S2 & _). apply C. apply (nth_error_In _ j). rewrite E2. f_equal. apply S2. reflexivity.
      * lia.
    + pose proof (C e (nth_error_In _ _ E)). pose proof (C e' (nth_error_In _ _ E')). lia.
Qed.
Print Assumptions C135_aligned_partial.

(* ---- Loops ---- *)
Lemma cells_ok o : forall values entry, length values <= length entry -> exists line, cells o entry values = Ok line.
Proof.
  induction values as [|v vs IH]; intros entry L; cbn [cells]. { eauto. } cbn in L. destruct (str_eqb v (op_separator o)).
  - destruct (IH entry ltac:(lia)) as (l & ->). cbn. eauto.
  - destruct entry as [|e entry]; cbn in L; [lia|]. destruct (IH entry ltac:(lia)) as (l & ->). cbn. eauto.
Qed.
(* Printing a row fails exactly if it has not as many values as there are entries;
   nothing is read outside the table, whatever was called before. *)
Theorem C135_printed_partial : forall t,
  (active t -> length (t_values t) <> length (t_entries t) -> outputState t = Err) /\
  (active t -> length (t_values t) = length (t_entries t) -> exists line, outputState t = Ok ([line], mkOutputter (t_entries t) [] (t_options t))) /\
  (~ active t -> outputState t = Ok ([], t) /\ outputHeader t = []).
Proof.
  intros t. unfold outputState, outputHeader, active. cbv zeta. split; [|split].
  - intros -> N. destruct (Nat.eqb_spec (length (t_entries t)) (length (t_values t))); [lia|reflexivity].
  - intros -> L. rewrite L, Nat.eqb_refl. destruct (cells_ok (t_options t) (t_values t) (t_entries t) ltac:(lia)) as (l & ->). cbn. eauto.
  - intro N. destruct (op_active (t_options t)); [contradiction N; reflexivity|auto].
Qed.
Print Assumptions C135_printed_partial.
Theorem C135_safe_partial : forall l t, calls l t <> UB.
Proof.
  assert (C : forall c t, call c t <> UB).
  { intros c t. destruct c; try discriminate. cbn [call]. destruct (C135_printed_partial t) as (P1 & P2 & P3). destruct (op_active (t_options t)) eqn:A.
    - destruct (Nat.eq_dec (length (t_values t)) (length (t_entries t))) as [L|L]. { destruct (P2 A L) as (x & ->). discriminate. } rewrite (P1 A L). discriminate.
    - destruct (P3 ltac:(unfold active; congruence)) as [-> _]. discriminate. }
  induction l as [|c l IH]; intros t; cbn [calls]; [discriminate|]. specialize (C c t). destruct (call c t) as [r| |]; cbn [bind]; try congruence.
  specialize (IH (snd r)). destruct (calls l (snd r)); cbn; congruence.
Qed.
Print Assumptions C135_safe_partial.

Lemma calls_app a : forall b t, calls (a ++ b) t = bind (calls a t) (fun r => omap (fun r' => (fst r ++ fst r', snd r')) (calls b (snd r))).
Proof.
  induction a as [|c a IH]; intros b t; cbn [app calls bind fst snd]. { destruct (calls b t) as [[]| |]; reflexivity. }
  destruct (call c t) as [r| |]; cbn [bind]; auto. rewrite IH. destruct (calls a (snd r)) as [r'| |]; cbn [bind omap fst snd]; auto.
  destruct (calls b (snd r')) as [r''| |]; cbn; auto. rewrite app_assoc. reflexivity.
Qed.
Lemma add_values vs : forall t, calls (map AddValue vs) t = Ok ([], mkOutputter (t_entries t) (t_values t ++ vs) (t_options t)).
Proof.
  induction vs as [|v vs IH]; intro t; cbn [map calls call bind]. { rewrite app_nil_r. destruct t; reflexivity. }
  rewrite IH. cbn [omap bind fst snd app addValue t_entries t_values t_options]. rewrite <- app_assoc. reflexivity.
Qed.
(* A loop that prints a row for each step gives a line for each row, with its values. *)
Theorem C135_rows_partial : forall rows t, active t -> t_values t = [] -> Forall (fun r => length r = length (t_entries t)) rows ->
  exists lines, calls (concat (map row rows)) t = Ok (lines, t) /\ Forall2 (fun r line => exists ws, divided line r ws) rows lines.
Proof.
  induction rows as [|r rows IH]; intros t A V F; cbn [map concat]. { exists []. split; [reflexivity|constructor]. }
  inversion F as [|? ? Fr F']; subst. destruct (IH t A V F') as (lines & E & D). rewrite calls_app. unfold row at 1. rewrite calls_app, add_values, V. cbn [bind fst snd app calls call].
  destruct (C135_printed_partial (mkOutputter (t_entries t) r (t_options t))) as (_ & P & _). destruct (P A Fr) as (line & Hl). rewrite Hl. cbn [bind omap fst snd app t_entries t_options].
  replace (mkOutputter (t_entries t) [] (t_options t)) with t by (destruct t; cbn in V; subst; reflexivity). rewrite E. cbn [omap bind fst snd].
  exists (line :: lines). split; [reflexivity|]. constructor; auto. apply outputState_inv in Hl as (_ & Hc & _); auto. destruct (cells_divided _ _ _ _ Hc) as (ws & Dw & _). eauto.
Qed.
Print Assumptions C135_rows_partial.

(* The names of indexed entries are different. *)
Lemma indexed_inj p i j : indexed p i = indexed p j -> i = j.
Proof.
  unfold indexed. intro H. apply app_inv_head in H. apply app_inv_head in H. apply app_inv_tail in H. apply (f_equal digits_Z) in H. rewrite !N_digits in H. lia.
Qed.
Lemma fold_entries {A} (f : A -> str) l : forall t, fold_left (fun t i => addEntry (f i) t) l t = mkOutputter (t_entries t ++ map f l) (t_values t) (t_options t).
Proof. induction l as [|a l IH]; intro t; cbn [fold_left map]. { rewrite app_nil_r. destruct t; reflexivity. } rewrite IH. cbn. rewrite <- app_assoc. reflexivity. Qed.
Theorem C135_entries_partial : forall prefix size given t, exists es, NoDup es /\ length es = size /\
  addEntries prefix size t = mkOutputter (t_entries t ++ es) (t_values t) (t_options t) /\
  addEntriesNamed prefix size given t = mkOutputter (t_entries t ++ (if length given =? size then map (fun n => prefix ++ $"[" ++ n ++ $"]") given else es)) (t_values t) (t_options t).
Proof.
  intros prefix size given t. exists (map (indexed prefix) (seq 0 size)). split.
  { pose proof (seq_NoDup size 0) as D. induction D as [|x l N D IH]; cbn; constructor; auto. intro I. apply in_map_iff in I as (y & E & I). apply indexed_inj in E. subst. contradiction. }
  split; [rewrite map_length, seq_length; reflexivity|]. assert (E : addEntries prefix size t = mkOutputter (t_entries t ++ map (indexed prefix) (seq 0 size)) (t_values t) (t_options t)) by apply fold_entries.
  split; [exact E|]. unfold addEntriesNamed. destruct (length given =? size); cbn [negb]; [|exact E]. apply fold_entries.
Qed.
Print Assumptions C135_entries_partial.

(* ---- Findings ---- *)
Definition on : Options := mkOptions true 15 $"|".
(* With a separator, the values after it have the widths of other columns. *)
Definition wide : Outputter := mkOutputter [$"step"; $"|"; $"amount of calcite"; $"saturation of calcite"] [$"1"; $"|"; $"2"; $"3"] on.
Theorem C135_separator_refuted : exists h line t', active wide /\ nth_error (outputHeader wide) 1 = Some h /\ outputState wide = Ok ([line], t') /\
  fits (t_options wide) (t_entries wide) (t_values wide) /\ ~ aligned h (t_entries wide) line (t_values wide).
Proof.
  do 3 eexists. split; [reflexivity|]. split; [vm_compute; reflexivity|]. split; [vm_compute; reflexivity|]. split.
  - repeat constructor; cbn; try lia; intro X; try discriminate X; reflexivity.
  - intros (ws & D1 & D2).
    assert (L : forall line texts ws, divided line texts ws -> length line = list_sum ws).
    { clear. intros line texts ws (cs & -> & L & L' & H). rewrite <- L in L'. revert texts ws L L' H. induction cs as [|c cs IH]; intros [|t ts] [|w ws] L L' H; cbn in L, L'; try lia; auto.
      cbn [concat]. change (list_sum (w :: ws)) with (w + list_sum ws). rewrite app_length, (IH ts ws). { destruct (H 0 t w c eq_refl eq_refl eq_refl) as [-> _]. reflexivity. } { lia. } { lia. }
      intros i. apply (H (S i)). }
    apply L in D1, D2. rewrite <- D1 in D2. vm_compute in D2. discriminate.
Qed.
Print Assumptions C135_separator_refuted.
(* Values that were not printed because the output was off stay: switching it on
   afterwards ends with an error. *)
Theorem C135_inactive_refuted : exists t r, t_values t = [] /\ length r = length (t_entries t) /\ calls (row r) t = Ok ([], addValue $"1" t) /\ calls (row r ++ SetOptions on :: row r) t = Err.
Proof. exists (addEntry $"step" newOutputter), [$"1"]. repeat split; vm_compute; reflexivity. Qed.
Print Assumptions C135_inactive_refuted.
(* And there is no way back: with more values than entries every row fails, however
   many values it has. *)
Theorem C135_stuck_partial : forall t r, active t -> length (t_entries t) < length (t_values t) -> calls (row r) t = Err.
Proof.
  intros t r A L. unfold row. rewrite calls_app, add_values. cbn [bind fst snd calls call].
  destruct (C135_printed_partial (mkOutputter (t_entries t) (t_values t ++ r) (t_options t))) as (P & _). rewrite P; auto. cbn [t_values t_entries]. rewrite app_length. lia.
Qed.
Print Assumptions C135_stuck_partial.
Theorem C135_refuted : ~ C135_statement.
Proof.
  intros [_ S]. destruct C135_inactive_refuted as (t & r & V & L & _ & E). destruct (S t r r on V L L eq_refl) as (ls & l2 & t' & E'). congruence.
Qed.
Print Assumptions C135_refuted.

Example C135_nonvacuous :
  let t := setOptions on (addEntries $"x" 2 (addEntry $"step" newOutputter)) in
  exists ls, calls (OutputHeader :: row [$"1"; $"0.5"; $"2"]) t = Ok (ls, t) /\ active t /\
  ls = [$"============================================="; $"step           x[0]           x[1]           "; $"============================================="; $"1              0.5            2              "] /\
  fits on (t_entries t) [$"1"; $"0.5"; $"2"] /\ ~ In (op_separator on) (t_entries t).
Proof.
  cbv zeta. eexists. split; [vm_compute; reflexivity|]. split; [reflexivity|]. split; [reflexivity|]. split.
  - vm_compute t_entries. repeat constructor; cbn; try lia; intro X; try discriminate X; reflexivity.
  - vm_compute. intros [X|[X|[X|[]]]]; discriminate.
Qed.
