(* Properties C06, C07, C08. *)
From Verif Require Import Base M_Strings S_Strings P_Strings.

(* ---- C06: making names unique yields distinct names ---- *)

(* Full statement. *)
Definition C06_statement : Prop :=
  forall words suffix, suffix <> [] ->
    length (makeunique words suffix) = length words /\
    Forall2 (fun w u => exists k, u = w ++ copies k suffix) words (makeunique words suffix) /\
    NoDup (makeunique words suffix).

(* Distinctness fails: ["A!"; "A"; "A"] with suffix "!" gives "A!" twice. *)
Theorem C06_makeunique_refuted : ~ C06_statement.
Proof.
  intros H. destruct (H [$"A!"; $"A"; $"A"] ($"!") ltac:(discriminate)) as (_ & _ & N).
  vm_compute in N. inversion N as [|x l Hx Hl]; subst. apply Hx. right; left; reflexivity.
Qed.
Print Assumptions C06_makeunique_refuted.

(* What holds: the shape of the result for every input; nothing changes when
   the words are already distinct; and when no word is another word followed by
   copies of the suffix, the n-th repetition gets n copies of the suffix and
   all words are distinct.  Missing for the full statement: distinctness for
   inputs that contain suffixed forms of other inputs. *)
Theorem C06_makeunique_partial : forall words suffix,
  length (makeunique words suffix) = length words /\
  Forall2 (fun w u => exists k, u = w ++ copies k suffix) words (makeunique words suffix) /\
  (NoDup words -> makeunique words suffix = words) /\
  (suffix <> [] -> suffix_free suffix words ->
     makeunique words suffix = numbered [] words suffix /\ NoDup (makeunique words suffix)).
Proof. exact makeunique_partial. Qed.
Print Assumptions C06_makeunique_partial.

Example C06_nonvacuous :
  suffix_free ($"!") [$"A"; $"B"; $"A"; $"A"] /\
  makeunique [$"A"; $"B"; $"A"; $"A"] ($"!") = [$"A"; $"B"; $"A!"; $"A!!"].
Proof.
  split; [|vm_compute; reflexivity].
  intros u v k Hu Hv E. apply (f_equal (fun s => last s "x"%char)) in E.
  rewrite last_copies in E by discriminate. cbn in Hu.
  destruct Hu as [<-|[<-|[<-|[<-|[]]]]]; vm_compute in E; discriminate.
Qed.

(* ---- C07: splitting and joining ---- *)
Theorem C07_split : forall s delims ws, split s delims = ws <-> Tokens delims s ws.
Proof. exact split_correct. Qed.
Print Assumptions C07_split.

Theorem C07_join : forall ws sep, join ws sep = intersperse sep ws.
Proof. exact join_correct. Qed.
Print Assumptions C07_join.

Theorem C07_split_join : forall ws sep delims,
  sep <> [] -> all_in delims sep ->
  Forall (fun w => w <> [] /\ none_in delims w) ws ->
  split (join ws sep) delims = ws.
Proof. exact split_join. Qed.
Print Assumptions C07_split_join.

Example C07_split_join_nonvacuous :
  all_in ($" ,") ($", ") /\ Forall (fun w => w <> [] /\ none_in ($" ,") w) [$"Na+"; $"Cl-"].
Proof.
  split.
  - intros c [<-|[<-|[]]]; cbn; tauto.
  - repeat constructor; try discriminate;
    intros c Hc Hd; cbn in Hc, Hd; repeat destruct Hc as [<-|Hc]; try tauto; repeat destruct Hd as [Hd|Hd]; try discriminate; tauto.
Qed.

Theorem C07_stringlist_words : forall s token,
  token <> "("%char -> token <> ")"%char -> trim s <> [] ->
  StringList s token = Ok (bracket_words token 0 [] (trim s)).
Proof. exact StringList_words. Qed.
Print Assumptions C07_stringlist_words.

Theorem C07_stringlist_lossless : forall s token, exists ws t,
  StringList s token = Ok ws /\ Trimmed s t /\ intersperse [token] ws = t /\ (ws = [] <-> t = []).
Proof. exact StringList_lossless_trimmed. Qed.
Print Assumptions C07_stringlist_lossless.

Theorem C07_trim : forall s t, trim s = t <-> Trimmed s t.
Proof. exact trim_correct. Qed.
Print Assumptions C07_trim.

Example C07_stringlist_nonvacuous :
  StringList ($" H2O amount(Ca units=(mol kg)) pH ") " "%char =
  Ok [$"H2O"; $"amount(Ca units=(mol kg))"; $"pH"].
Proof. vm_compute. reflexivity. Qed.

(* ---- C08: replacement ---- *)
Theorem C08_replace : forall s sub new r, sub <> [] ->
  (replace s sub new = Ok r <-> Replaced sub new s r).
Proof. exact replace_correct. Qed.
Print Assumptions C08_replace.

Theorem C08_replace_total : forall s sub new, exists r, replace s sub new = Ok r.
Proof. exact replace_total. Qed.
Print Assumptions C08_replace_total.

Theorem C08_replace_empty : forall s new, replace s [] new = Ok s.
Proof. exact replace_empty. Qed.
Print Assumptions C08_replace_empty.

Example C08_nonvacuous : replace ($"aaa-aa") ($"aa") ($"aab") = Ok ($"aaba-aab").
Proof. vm_compute. reflexivity. Qed.
