(* C144: messages of errors name the error, its reason and the place. *)
From Verif Require Import Base M_Strings M_Chem M_Naming M_Exception S_Naming C_Naming.
Local Open Scope nat_scope.

Definition Source : str := $"Reaktoro/".
Definition Suffix (p s : str) : Prop := exists a, s = a ++ p.
(* The name of a file, after the last slash or backslash. *)
Definition Named (name file : str) : Prop := Forall (fun c => c <> "/"%char /\ c <> "\"%char) name /\ name <> [] /\
  exists dirs, file = dirs ++ name /\ (dirs = [] \/ exists d c, dirs = d ++ [c] /\ (c = "/"%char \/ c = "\"%char)).

(* ---- Proofs ---- *)
Lemma is_prefix_spec p : forall s, is_prefix p s = true <-> exists r, s = p ++ r.
Proof.
  induction p as [|x p IH]; intros s; cbn [is_prefix]; [split; [intros _; exists s; reflexivity|reflexivity]|].
  destruct s as [|y s]; [split; [discriminate|intros (r & E); discriminate E]|]. rewrite andb_true_iff, IH. split.
  - intros (E & r & ->). apply Ascii.eqb_eq in E. subst. exists r. reflexivity.
  - intros (r & E). injection E as -> ->. split; [apply Ascii.eqb_refl|exists r; reflexivity].
Qed.
Lemma find_last_some sub s : forall k, find_last sub s = Some k -> exists a b, s = a ++ sub ++ b /\ length a = k.
Proof.
  induction s as [|c s IH]; intros k H; cbn [find_last] in H; [discriminate H|]. destruct (find_last sub s) as [j|].
  - injection H as <-. destruct (IH j eq_refl) as (a & b & -> & <-). exists (c :: a), b. split; reflexivity.
  - destruct (is_prefix sub (c :: s)) eqn:E; [|discriminate H]. injection H as <-. apply is_prefix_spec in E as (r & E). exists [], r. split; [exact E|reflexivity].
Qed.
Lemma find_last_max sub s : sub <> [] -> forall a b, s = a ++ sub ++ b -> exists k, find_last sub s = Some k /\ length a <= k.
Proof.
  intros N. induction s as [|c s IH]; intros a b E.
  - destruct a; [|discriminate E]. destruct sub; [destruct N; reflexivity|discriminate E].
  - cbn [find_last]. destruct a as [|x a].
    + destruct (find_last sub s) as [j|]; [exists (S j); split; [reflexivity|cbn; lia]|].
      assert (P : is_prefix sub (c :: s) = true) by (apply is_prefix_spec; exists b; exact E). rewrite P. exists 0. split; [reflexivity|cbn; lia].
    + injection E as -> E. destruct (IH a b E) as (k & -> & L). exists (S k). split; [reflexivity|cbn; lia].
Qed.
Lemma location_at a rest line : find_end (a ++ rest) Source = length a -> location (a ++ rest) line = rest ++ $":" ++ N_to_string line.
Proof.
  intros H. unfold location. change $"Reaktoro/" with Source. rewrite H, app_length, skipn_app, skipn_all, Nat.sub_diag. cbn [skipn app].
  replace (length a + length rest - length a) with (length rest) by lia. rewrite firstn_all. reflexivity.
Qed.

(* The place is the path from the last directory Reaktoro on, and the line. *)
Theorem C144_location_partial : forall a b line d, (forall a' b', a ++ Source ++ b = a' ++ Source ++ b' -> length a' <= length a) -> Decimal line d ->
  location (a ++ Source ++ b) line = Source ++ b ++ $":" ++ d.
Proof.
  intros a b line d M D. apply decimal_iff in D. subst d. rewrite location_at; [rewrite <- app_assoc; reflexivity|].
  unfold find_end. destruct (find_last_max Source (a ++ Source ++ b) ltac:(discriminate) a b eq_refl) as (k & E & L). rewrite E.
  apply find_last_some in E as (a' & b' & E & <-). specialize (M _ _ E). lia.
Qed.
Print Assumptions C144_location_partial.
(* It never is more than a part of the path, and the line always is there. *)
Theorem C144_line_partial : forall file line d, Decimal line d -> exists p, Suffix p file /\ location file line = p ++ $":" ++ d.
Proof.
  intros file line d D. apply decimal_iff in D. subst d.
  assert (L : find_end file Source <= length file).
  { unfold find_end. destruct (find_last Source file) eqn:E; [|lia]. apply find_last_some in E as (a & b & -> & <-). rewrite app_length. lia. }
  exists (skipn (find_end file Source) file). split; [exists (firstn (find_end file Source) file); symmetry; apply firstn_skipn|].
  rewrite <- (firstn_skipn (find_end file Source) file) at 1. apply location_at. rewrite firstn_skipn, firstn_length. lia.
Qed.
Print Assumptions C144_line_partial.
(* The message has the error, the reason and the place, each on its line, between two bars
   that are no shorter than the lines of the error and the reason. *)
Theorem C144_message_partial : forall error reason file line, exists bar,
  message error reason file line = endl ++ bar ++ endl ++ ($"*** Error: " ++ error) ++ endl ++ ($"*** Reason: " ++ reason) ++ endl ++
    ($"*** Location:  This error was encountered in " ++ location file line ++ $".") ++ endl ++ bar ++ endl ++ endl /\
  Forall (fun c => c = "*"%char) bar /\ length ($"*** Error: " ++ error) <= length bar /\ length ($"*** Reason: " ++ reason) <= length bar.
Proof.
  intros. exists (repeat "*"%char (Nat.max (length error) (Nat.max (length reason) (length (location file line))) + 25)). split.
  { unfold message. generalize (location file line). intros loc. cbv zeta. rewrite <- (app_assoc $"*** Error: "), <- (app_assoc $"*** Reason: "), <- (app_assoc $"*** Location:  This error was encountered in "), <- (app_assoc loc). reflexivity. }
  split; [apply Forall_forall; intros x I; apply repeat_spec in I; exact I|].
  generalize (location file line). intros loc. rewrite repeat_length, (app_length $"*** Error: "), (app_length $"*** Reason: ").
  assert (E : length $"*** Error: " = 11) by reflexivity. assert (R : length $"*** Reason: " = 12) by reflexivity. rewrite E, R. split; lia.
Qed.
Print Assumptions C144_message_partial.

(* The full statement: the message ends with a place that includes the name of the file. *)
Definition C144_statement : Prop := forall file name line d, Named name file -> Decimal line d -> exists p, Suffix name p /\ location file line = p ++ $":" ++ d.
(* Files out of a directory Reaktoro, such as those of a program that uses the library, and
   all files whose path is written with backslashes, have no name in the message. *)
Theorem C144_elsewhere_refuted : forall file line d, (forall a b, file <> a ++ Source ++ b) -> Decimal line d -> location file line = $":" ++ d.
Proof.
  intros file line d N D. apply decimal_iff in D. subst d. rewrite <- (app_nil_r file). apply (location_at file []). rewrite app_nil_r. unfold find_end.
  destruct (find_last Source file) eqn:E; [|reflexivity]. apply find_last_some in E as (a & b & E & _). destruct (N a b E).
Qed.
Print Assumptions C144_elsewhere_refuted.
Theorem C144_refuted : ~ C144_statement.
Proof.
  intros H. destruct (H $"C:\Reaktoro\Core\Species.cpp" $"Species.cpp" 7%N $"7") as (p & (a & ->) & E).
  - split; [repeat constructor; discriminate|]. split; [discriminate|]. exists $"C:\Reaktoro\Core\". split; [reflexivity|]. right. exists $"C:\Reaktoro\Core", "\"%char. split; [reflexivity|right; reflexivity].
  - apply decimal_iff. reflexivity.
  - assert (X : location $"C:\Reaktoro\Core\Species.cpp" 7 = $":7") by (vm_compute; reflexivity). rewrite X in E. apply (f_equal (@length ascii)) in E. rewrite !app_length in E. cbn in E. lia.
Qed.
Print Assumptions C144_refuted.
(* The example of the documentation, with a line. *)
Example C144_nonvacuous : location $"/home/user/git/Reaktoro/Reaktoro/Reaktoro/Core/Species.cpp" 105 = $"Reaktoro/Core/Species.cpp:105" /\
  (forall a' b', $"/x/Reaktoro/" ++ Source ++ $"A.cpp" = a' ++ Source ++ b' -> length a' <= length $"/x/Reaktoro/").
Proof.
  split; [vm_compute; reflexivity|]. intros a' b' E. destruct (find_last_max Source _ ltac:(discriminate) a' b' E) as (k & K & L). vm_compute in K. injection K as <-. exact L.
Qed.
