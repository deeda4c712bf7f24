(* Proofs about the unit model. *)
From Coq Require Import Qpower Lqa.
From Verif Require Import Base M_Units S_Units.

(* ---- association lists ---- *)
Lemma find_in {A} k (m : list (str * A)) a : find k m = Some a -> In (k, a) m.
Proof.
  induction m as [|[k' a'] m IH]; cbn; [discriminate|].
  destruct (str_eqb_spec k k') as [->|]; [intros [= ->]|]; auto.
Qed.

Lemma find_none {A} k (m : list (str * A)) : find k m = None <-> ~ In k (map fst m).
Proof.
  induction m as [|[k' a'] m IH]; cbn; [tauto|].
  destruct (str_eqb_spec k k') as [->|N]; [split; [discriminate|tauto]|].
  rewrite IH. split; [intros H [E|E]; [congruence|auto]|tauto].
Qed.

Lemma dim_get_add d k n k' :
  dim_get (dim_add d k n) k' = (dim_get d k' + if str_eqb k k' then n else 0)%Z.
Proof.
  unfold dim_get. induction d as [|[k0 m] d IH]; cbn.
  - destruct (str_eqb_spec k' k) as [E|N], (str_eqb_spec k k') as [E'|N']; try lia; congruence.
  - destruct (str_eqb_spec k k0) as [->|N]; cbn.
    + destruct (str_eqb_spec k' k0) as [->|N]; [rewrite str_eqb_refl; lia|].
      destruct (str_eqb_spec k0 k') as [E|_]; [congruence|]. lia.
    + destruct (str_eqb_spec k' k0) as [->|N']; [|exact IH].
      destruct (str_eqb_spec k k0) as [E|_]; [congruence|]. lia.
Qed.

Lemma dim_eqb_spec a b : dim_eqb a b = true <-> forall k, dim_get a k = dim_get b k.
Proof.
  unfold dim_eqb. rewrite forallb_forall. split.
  - intros H k. destruct (in_dec str_eq_dec k (map fst a ++ map fst b)) as [I|N].
    + apply Z.eqb_eq. auto.
    + rewrite in_app_iff in N. unfold dim_get.
      rewrite (proj2 (find_none k a)), (proj2 (find_none k b)); tauto.
  - intros H k _. apply Z.eqb_eq. auto.
Qed.

(* ---- tables ---- *)
Definition known (s : str) : bool :=
  isTemp s || match find s derivedUnitsMap with Some _ => true | None => false end.

Definition all_names : list str := map fst derivedUnitsMap ++ map fst temperatureUnitsMap.

Lemma known_in s : known s = true <-> In s all_names.
Proof.
  unfold known, isTemp, all_names. rewrite in_app_iff.
  destruct (find s temperatureUnitsMap) eqn:E1; cbn [orb].
  - split; [intros _; right|reflexivity]. apply find_in in E1. apply (in_map fst) in E1. exact E1.
  - apply find_none in E1. destruct (find s derivedUnitsMap) eqn:E2.
    + split; [intros _; left|reflexivity]. apply find_in in E2. apply (in_map fst) in E2. exact E2.
    + apply find_none in E2. split; [discriminate|tauto].
Qed.

Lemma depth_S : depth = S (pred depth).
Proof. vm_compute. reflexivity. Qed.

Lemma factor_unknown s : known s = false -> factor depth s = Err.
Proof.
  unfold known. rewrite depth_S. cbn [factor]. destruct (isTemp s); cbn [orb]; [discriminate|].
  destruct (find s derivedUnitsMap); [discriminate|reflexivity].
Qed.

Lemma dimension_unknown s n d : known s = false -> dimension depth s n d = Err.
Proof.
  unfold known. rewrite depth_S. cbn [dimension]. destruct (isTemp s); cbn [orb]; [discriminate|].
  destruct (find s derivedUnitsMap); [discriminate|reflexivity].
Qed.

Definition factor_pos (s : str) : bool :=
  match factor depth s with Ok q => (0 <? Qnum q)%Z | _ => false end.
Lemma table_factor : forallb factor_pos all_names = true.
Proof. vm_compute. reflexivity. Qed.
Lemma table_dimension : forallb (fun s => is_ok (dimension depth s 1 [])) all_names = true.
Proof. vm_compute. reflexivity. Qed.

(* The magnitude and dimension the library assigns to a symbol. *)
Definition unit_value (s : str) : Q := match factor depth s with Ok q => q | _ => 0%Q end.
Definition unit_dim (s : str) (k : str) : Z :=
  match dimension depth s 1 [] with Ok d => dim_get d k | _ => 0%Z end.

Lemma factor_known s : known s = true -> factor depth s = Ok (unit_value s) /\ (0 < unit_value s)%Q.
Proof.
  rewrite known_in. intro I. pose proof table_factor as H. rewrite forallb_forall in H.
  specialize (H _ I). unfold factor_pos in H. unfold unit_value.
  destruct (factor depth s) as [q| |]; try discriminate. split; [reflexivity|].
  unfold Qlt. cbn. apply Z.ltb_lt in H. lia.
Qed.

Definition dim_behaves (f : Z -> dims -> outcome dims) : Prop :=
  (exists delta : str -> Z, forall mp res, exists d, f mp res = Ok d /\
     forall k, dim_get d k = (dim_get res k + mp * delta k)%Z) \/
  (forall mp res, f mp res = Err) \/ (forall mp res, f mp res = UB).

Lemma fold_bad (f : StringUnit -> dims -> outcome dims) us :
  fold_left (fun r u => bind r (f u)) us Err = Err /\ fold_left (fun r u => bind r (f u)) us UB = UB.
Proof. induction us as [|u us IH]; cbn; auto. Qed.

Lemma dim_behaves_fold n us :
  (forall s, dim_behaves (dimension n s)) ->
  dim_behaves (fun mp res =>
    fold_left (fun r u => bind r (dimension n (su_symbol u) (su_power u * mp))) us (Ok res)).
Proof.
  intro H. induction us as [|u us IH]; cbn [fold_left bind].
  - left. exists (fun _ => 0%Z). intros mp res. exists res. split; auto. intro; lia.
  - destruct (H (su_symbol u)) as [(delta & Hd)|[He|Hu]].
    + destruct IH as [(delta2 & Hd2)|[He2|Hu2]].
      * left. exists (fun k => su_power u * delta k + delta2 k)%Z. intros mp res.
        destruct (Hd (su_power u * mp)%Z res) as (d & Ed & Gd). rewrite Ed.
        destruct (Hd2 mp d) as (d2 & Ed2 & Gd2). exists d2. split; auto.
        intro k. rewrite Gd2, Gd. lia.
      * right; left. intros mp res.
        destruct (Hd (su_power u * mp)%Z res) as (d & Ed & Gd). rewrite Ed. apply He2.
      * right; right. intros mp res.
        destruct (Hd (su_power u * mp)%Z res) as (d & Ed & Gd). rewrite Ed. apply Hu2.
    + right; left. intros mp res. rewrite He.
      apply (proj1 (fold_bad (fun u => dimension n (su_symbol u) (su_power u * mp)) us)).
    + right; right. intros mp res. rewrite Hu.
      apply (proj2 (fold_bad (fun u => dimension n (su_symbol u) (su_power u * mp)) us)).
Qed.

Lemma dimension_behaves n s : dim_behaves (dimension n s).
Proof.
  revert s. induction n as [|n IH]; intro s; [right; right; reflexivity|].
  unfold dim_behaves. cbn [dimension]. destruct (isTemp s).
  - left. exists (fun k => if str_eqb s k then 1 else 0)%Z. intros mp res.
    eexists. split; [reflexivity|]. intro k. rewrite dim_get_add. destruct (str_eqb s k); lia.
  - destruct (find s derivedUnitsMap) as [[|u0 us]|]; [right; right; reflexivity| |right; left; reflexivity].
    destruct (str_eqb (su_symbol u0) s).
    + left. exists (fun k => if str_eqb (su_symbol u0) k then su_power u0 else 0)%Z. intros mp res.
      eexists. split; [reflexivity|]. intro k. rewrite dim_get_add. destruct (str_eqb (su_symbol u0) k); lia.
    + apply (dim_behaves_fold n (u0 :: us) IH).
Qed.

Lemma dimension_known s mp res : known s = true ->
  exists d, dimension depth s mp res = Ok d /\ forall k, dim_get d k = (dim_get res k + mp * unit_dim s k)%Z.
Proof.
  rewrite known_in. intro I. pose proof table_dimension as H. rewrite forallb_forall in H.
  specialize (H _ I). unfold unit_dim.
  destruct (dimension_behaves depth s) as [(delta & Hd)|[He|Hu]].
  - destruct (Hd 1%Z []) as (d1 & E1 & G1). rewrite E1.
    destruct (Hd mp res) as (d & E & G). exists d. split; auto. intro k. rewrite G, G1. cbn [dim_get find]. lia.
  - rewrite He in H. discriminate.
  - rewrite Hu in H. discriminate.
Qed.

(* ---- lists of signed symbols ---- *)
Fixpoint leaves (sign : Z) (e : uexpr) : DerivedUnit :=
  match e with
  | UTerm t => leaves_term sign t
  | UOp e' div t => leaves sign e' ++ leaves_term (if div then - sign else sign)%Z t
  end
with leaves_term (sign : Z) (t : uterm) : DerivedUnit :=
  match t with
  | USym s => [(1%Q, s, sign)]
  | UPar e => leaves sign e
  end.

Definition du_known (u : DerivedUnit) : bool := forallb (fun x => known (su_symbol x)) u.

Fixpoint du_value (u : DerivedUnit) : Q :=
  match u with
  | [] => 1
  | x :: u' => su_factor x * Qpower (unit_value (su_symbol x)) (su_power x) * du_value u'
  end%Q.

Fixpoint du_dim (u : DerivedUnit) (k : str) : Z :=
  match u with
  | [] => 0
  | x :: u' => su_power x * unit_dim (su_symbol x) k + du_dim u' k
  end%Z.

Lemma factorDU_known u : du_known u = true -> factorDU u = Ok (du_value u).
Proof.
  induction u as [|x u IH]; cbn [du_known forallb factorDU du_value]; [reflexivity|].
  intro H. apply andb_true_iff in H as [H1 H2].
  rewrite (proj1 (factor_known _ H1)). cbn [bind]. rewrite (IH H2). reflexivity.
Qed.

Lemma dimensionDU_known u res : du_known u = true ->
  exists d, dimensionDU u res = Ok d /\ forall k, dim_get d k = (dim_get res k + du_dim u k)%Z.
Proof.
  revert res. induction u as [|x u IH]; intro res; cbn [du_known forallb dimensionDU du_dim].
  - intros _. exists res. split; auto. intro; lia.
  - intro H. apply andb_true_iff in H as [H1 H2].
    destruct (dimension_known (su_symbol x) (su_power x) res H1) as (d & E & G). rewrite E. cbn [bind].
    destruct (IH d H2) as (d2 & E2 & G2). exists d2. split; auto. intro k. rewrite G2, G. lia.
Qed.

Lemma dimensionDU_unknown u res : du_known u = false -> dimensionDU u res = Err.
Proof.
  revert res. induction u as [|x u IH]; intro res; cbn [du_known forallb dimensionDU]; [discriminate|].
  destruct (known (su_symbol x)) eqn:K; cbn [andb]; intro H.
  - destruct (dimension_known (su_symbol x) (su_power x) res K) as (d & E & G). rewrite E. cbn [bind]. apply (IH d H).
  - rewrite (dimension_unknown _ _ _ K). reflexivity.
Qed.

Lemma du_value_app a b : (du_value (a ++ b) == du_value a * du_value b)%Q.
Proof.
  induction a as [|x a IH]; cbn [app du_value]; [ring|]. rewrite IH. ring.
Qed.

Lemma du_dim_app a b k : du_dim (a ++ b) k = (du_dim a k + du_dim b k)%Z.
Proof. induction a as [|x a IH]; cbn [app du_dim]; [reflexivity|]. rewrite IH. lia. Qed.

Lemma du_known_app a b : du_known (a ++ b) = du_known a && du_known b.
Proof. unfold du_known. apply forallb_app. Qed.

Lemma leaves_known e : forall sg, du_known (leaves sg e) = forallb known (symbols e).
Proof.
  induction e using uexpr_mut with (P0 := fun t => forall sg, du_known (leaves_term sg t) = forallb known (symbols_term t));
    intro sg; cbn [leaves leaves_term symbols symbols_term]; auto.
  rewrite du_known_app, forallb_app, IHe, IHe0. reflexivity.
Qed.

Lemma leaves_dim e : forall sg k, du_dim (leaves sg e) k = (sg * edim unit_dim e k)%Z.
Proof.
  induction e using uexpr_mut with
    (P0 := fun t => forall sg k, du_dim (leaves_term sg t) k = (sg * edim_term unit_dim t k)%Z);
    intros sg k; cbn [leaves leaves_term]; try apply IHe.
  - rewrite du_dim_app, IHe, IHe0. destruct div; [change (edim unit_dim (UOp e true t) k) with (edim unit_dim e k - edim_term unit_dim t k)%Z|change (edim unit_dim (UOp e false t) k) with (edim unit_dim e k + edim_term unit_dim t k)%Z]; ring.
  - cbn [du_dim su_power su_symbol fst snd edim_term]. lia.
Qed.

Lemma eval_pos e : (forall s, In s (symbols e) -> known s = true) -> (0 < eval unit_value e)%Q.
Proof.
  induction e using uexpr_mut with
    (P0 := fun t => (forall s, In s (symbols_term t) -> known s = true) -> (0 < eval_term unit_value t)%Q);
    cbn [symbols symbols_term]; intro H; try (apply IHe; exact H).
  - assert (A : (0 < eval unit_value e)%Q) by (apply IHe; intros; apply H, in_or_app; auto).
    assert (B : (0 < eval_term unit_value t)%Q) by (apply IHe0; intros; apply H, in_or_app; auto).
    destruct div; [change (eval unit_value (UOp e true t)) with (eval unit_value e / eval_term unit_value t)%Q|
      change (eval unit_value (UOp e false t)) with (eval unit_value e * eval_term unit_value t)%Q].
    + apply Qlt_shift_div_l; auto. lra.
    + apply Qmult_lt_0_compat; auto.
  - apply factor_known, H. left; reflexivity.
Qed.

Definition signed (sg : Z) (q : Q) : Q := if (sg =? 1)%Z then q else (/ q)%Q.
Lemma leaves_value e : forall sg, (forall s, In s (symbols e) -> known s = true) -> sg = 1%Z \/ sg = (-1)%Z ->
  (du_value (leaves sg e) == signed sg (eval unit_value e))%Q.
Proof.
  induction e using uexpr_mut with
    (P0 := fun t => forall sg, (forall s, In s (symbols_term t) -> known s = true) -> sg = 1%Z \/ sg = (-1)%Z ->
      (du_value (leaves_term sg t) == signed sg (eval_term unit_value t))%Q);
    intros sg H S; cbn [leaves leaves_term symbols symbols_term] in *; try (apply IHe; assumption).
  - assert (He : forall s, In s (symbols e) -> known s = true) by (intros; apply H, in_or_app; auto).
    assert (Ht : forall s, In s (symbols_term t) -> known s = true) by (intros; apply H, in_or_app; auto).
    assert (S' : (if div then - sg else sg)%Z = 1%Z \/ (if div then - sg else sg)%Z = (-1)%Z)
      by (destruct S as [-> | ->], div; auto).
    rewrite du_value_app, (IHe sg He S), (IHe0 _ Ht S').
    pose proof (eval_pos e He) as A.
    assert (B : (0 < eval_term unit_value t)%Q) by (apply (eval_pos (UTerm t)); exact Ht).
    assert (T : eval unit_value (UOp e div t) = if div then (eval unit_value e / eval_term unit_value t)%Q
      else (eval unit_value e * eval_term unit_value t)%Q) by (destruct div; reflexivity).
    rewrite T. destruct S as [-> | ->], div; unfold signed; cbn [Z.eqb Z.opp Pos.eqb]; field; lra.
  - change (eval_term unit_value (USym s)) with (unit_value s). cbn [du_value su_factor su_symbol su_power fst snd].
    destruct (factor_known s) as [_ P]; [apply H; left; reflexivity|].
    destruct S as [-> | ->]; unfold signed; cbn [Z.eqb Pos.eqb Qpower Qpower_positive pow_pos]; field; lra.
Qed.

(* ---- parsing ---- *)
Lemma plain_char s c : plain s -> In c s -> special c = false.
Proof.
  unfold plain. rewrite forallb_forall. intros H I. specialize (H _ I). destruct (special c); auto; discriminate.
Qed.

Lemma special_false c : special c = false ->
  Ascii.eqb c "*"%char = false /\ Ascii.eqb c "/"%char = false /\
  Ascii.eqb c "("%char = false /\ Ascii.eqb c ")"%char = false.
Proof. unfold special. cbn [existsb list_ascii_of_string]. intro H. repeat apply orb_false_iff in H as [? H]. auto. Qed.

Lemma last_opt_snoc {A} (l : list A) x : last_opt (l ++ [x]) = Some x.
Proof. unfold last_opt. rewrite rev_app_distr. reflexivity. Qed.

Lemma last_opt_app {A} (a b : list A) : b <> [] -> last_opt (a ++ b) = last_opt b.
Proof.
  destruct b as [|y b _] using rev_ind; [congruence|]. intros _.
  rewrite app_assoc, !last_opt_snoc. reflexivity.
Qed.

Lemma find_last_op_none s : (forall c, In c s -> isop c = false) -> find_last_op s = None.
Proof.
  induction s as [|c s IH]; cbn; auto. intro H. rewrite IH by (intros; apply H; auto).
  rewrite H by auto. reflexivity.
Qed.

Lemma find_last_op_app a c b : isop c = true -> (forall x, In x b -> isop x = false) ->
  find_last_op (a ++ c :: b) = Some (length a).
Proof.
  intros Hc Hb. induction a as [|x a IH]; cbn.
  - rewrite find_last_op_none, Hc; auto.
  - rewrite IH. reflexivity.
Qed.

Lemma plain_noop s : plain s -> forall c, In c s -> isop c = false.
Proof.
  intros H c I. destruct (special_false _ (plain_char _ _ H I)) as (A & B & _).
  unfold isop. rewrite A, B. reflexivity.
Qed.

Lemma opchar_isop div : isop (opchar div) = true.
Proof. destruct div; reflexivity. Qed.

Lemma findMatched_plain s : (forall c, In c s -> Ascii.eqb c "("%char = false /\ Ascii.eqb c ")"%char = false) ->
  forall lv r, findMatched lv (s ++ r) = findMatched lv r.
Proof.
  induction s as [|c s IH]; cbn; auto. intros H lv r.
  destruct (H c (or_introl eq_refl)) as [A B]. rewrite A, B. cbn. apply IH. intros; apply H; auto.
Qed.

Lemma findMatched_expr e : wf e -> forall lv r, (0 <= lv)%Z ->
  findMatched lv (rev (print e) ++ r) = findMatched lv r.
Proof.
  induction e using uexpr_mut with
    (P0 := fun t => (forall s, In s (symbols_term t) -> s <> [] /\ plain s) -> forall lv r, (0 <= lv)%Z ->
      findMatched lv (rev (print_term t) ++ r) = findMatched lv r);
    unfold wf in *; cbn [print print_term symbols symbols_term]; intros H lv r L; auto.
  - rewrite rev_app_distr. cbn [rev]. rewrite <- !app_assoc. cbn [app].
    rewrite IHe0 by (auto; intros; apply H, in_or_app; auto).
    cbn [findMatched]. assert (Ascii.eqb (opchar div) ")"%char = false) as -> by (destruct div; reflexivity).
    assert (Ascii.eqb (opchar div) "("%char = false) as -> by (destruct div; reflexivity). cbn [andb].
    apply IHe; auto. intros; apply H, in_or_app; auto.
  - apply findMatched_plain. intros c I. apply in_rev in I.
    destruct (H s (or_introl eq_refl)) as [_ P].
    destruct (special_false _ (plain_char _ _ P I)) as (_ & _ & A & B). auto.
  - rewrite !rev_app_distr. cbn [rev app list_ascii_of_string]. rewrite <- app_assoc. cbn [app].
    cbn [findMatched]. replace (Ascii.eqb ")" ")") with true by reflexivity.
    replace (Ascii.eqb ")" "(") with false by reflexivity. cbn [andb].
    rewrite IHe by (auto; lia). cbn [findMatched app].
    replace (Ascii.eqb "(" ")") with false by reflexivity.
    replace (Ascii.eqb "(" "(") with true by reflexivity. cbn [andb].
    replace (lv + 1 - 1)%Z with lv by lia.
    destruct (Z.eqb_spec lv (-1)); [lia|reflexivity].
Qed.

Lemma print_nonempty e : wf e -> print e <> [].
Proof.
  destruct e as [[s|e]|e div t]; cbn [print print_term].
  - intro H. apply (H s). left; reflexivity.
  - discriminate.
  - intros _. destruct (print e); discriminate.
Qed.

Lemma firstn_length_app {A} (a b : list A) : firstn (length a) (a ++ b) = a.
Proof. induction a; cbn; congruence. Qed.
Lemma skipn_length_app {A} (a b : list A) : skipn (length a) (a ++ b) = b.
Proof. induction a; cbn; congruence. Qed.

(* One step of the parser on each shape of string. *)
Lemma parse_word n s : s <> [] -> plain s -> parseUnitNode (S n) s = Ok (Node s Null Null).
Proof.
  intros N P. cbn [parseUnitNode]. destruct s as [|c s _] using rev_ind; [congruence|].
  rewrite last_opt_snoc.
  assert (I : In c (s ++ [c])) by (apply in_or_app; right; left; reflexivity).
  destruct (special_false _ (plain_char _ _ P I)) as (_ & _ & _ & B). rewrite B.
  rewrite find_last_op_none by (apply plain_noop; exact P). reflexivity.
Qed.

Lemma parse_op_word n a div w : a <> [] -> plain w ->
  parseUnitNode (S n) (a ++ opchar div :: w) =
  bind (parseUnitNode n a) (fun left => Ok (Node [opchar div] left (Node w Null Null))).
Proof.
  intros N P. cbn [parseUnitNode].
  assert (L : exists c, last_opt (a ++ opchar div :: w) = Some c /\ Ascii.eqb c ")"%char = false).
  { destruct w as [|c w _] using rev_ind.
    - exists (opchar div). split; [apply last_opt_snoc|destruct div; reflexivity].
    - exists c. split; [rewrite app_comm_cons, app_assoc; apply last_opt_snoc|].
      assert (I : In c (w ++ [c])) by (apply in_or_app; right; left; reflexivity).
      apply (special_false _ (plain_char _ _ P I)). }
  destruct L as (c & -> & ->).
  rewrite find_last_op_app by (apply opchar_isop || (apply plain_noop; exact P)).
  destruct (length a) as [|k] eqn:E; [destruct a; [congruence|discriminate]|].
  rewrite <- E, firstn_length_app, skipn_length_app.
  replace (length a + 1) with (length (a ++ [opchar div])) by (rewrite app_length; reflexivity).
  change (a ++ opchar div :: w) with (a ++ [opchar div] ++ w). rewrite app_assoc, skipn_length_app. reflexivity.
Qed.

Lemma find_paren a e : wf e ->
  findMatched 0 (rev (firstn (length (a ++ "("%char :: print e)) (a ++ "("%char :: print e ++ [")"%char]))) = Some (length a).
Proof.
  intro W. replace (a ++ "("%char :: print e ++ [")"%char]) with ((a ++ "("%char :: print e) ++ [")"%char])
    by (rewrite <- app_assoc; reflexivity).
  rewrite firstn_length_app, rev_app_distr. cbn [rev]. rewrite <- !app_assoc. cbn [app].
  rewrite findMatched_expr by (auto; lia). cbn [findMatched].
  replace (Ascii.eqb "(" ")") with false by reflexivity.
  replace (Ascii.eqb "(" "(") with true by reflexivity. cbn [andb]. rewrite rev_length. reflexivity.
Qed.

Lemma parse_paren n e : wf e -> parseUnitNode (S n) ($"(" ++ print e ++ $")") = parseUnitNode n (print e).
Proof.
  intro W. cbn [parseUnitNode]. cbn [list_ascii_of_string].
  replace (last_opt (["("%char] ++ print e ++ [")"%char])) with (Some ")"%char)
    by (rewrite app_assoc, last_opt_snoc; reflexivity).
  replace (Ascii.eqb ")" ")") with true by reflexivity.
  assert (length (["("%char] ++ print e ++ [")"%char]) - 1 = length ([] ++ "("%char :: print e)) as ->
    by (cbn [app length]; rewrite app_length; cbn; lia).
  cbn [app]. pose proof (find_paren [] e W) as F. cbn [app] in F. rewrite F. cbn [length skipn].
  replace (S (length (print e)) - 0 - 1) with (length (print e)) by lia.
  rewrite firstn_length_app. reflexivity.
Qed.

Lemma parse_op_paren n a div e : wf e ->
  parseUnitNode (S n) (a ++ opchar div :: $"(" ++ print e ++ $")") =
  bind (parseUnitNode n a) (fun left => bind (parseUnitNode n (print e)) (fun right =>
  Ok (Node [opchar div] left right))).
Proof.
  intro W. cbn [parseUnitNode]. cbn [list_ascii_of_string app].
  assert (last_opt (a ++ opchar div :: "("%char :: print e ++ [")"%char]) = Some ")"%char) as ->.
  { rewrite last_opt_app by discriminate. rewrite !app_comm_cons, last_opt_snoc. reflexivity. }
  replace (Ascii.eqb ")" ")") with true by reflexivity.
  set (s := a ++ opchar div :: "("%char :: print e ++ [")"%char]).
  assert (S1 : s = (a ++ [opchar div]) ++ "("%char :: print e ++ [")"%char]) by (unfold s; rewrite <- app_assoc; reflexivity).
  assert (length s - 1 = length ((a ++ [opchar div]) ++ "("%char :: print e)) as ->
    by (unfold s; rewrite !app_length; cbn [length]; rewrite app_length; cbn [length]; lia).
  replace (findMatched 0 _) with (Some (S (length a))).
  2:{ rewrite S1. rewrite (find_paren _ e W), app_length. f_equal. cbn. lia. }
  cbv zeta. unfold s at 1. rewrite firstn_length_app.
  assert (firstn 1 (skipn (length a) s) = [opchar div]) as -> by (unfold s; rewrite skipn_length_app; reflexivity).
  replace (S (length a) + 1) with (length ((a ++ [opchar div]) ++ ["("%char])) by (rewrite !app_length; cbn; lia).
  assert (skipn (length ((a ++ [opchar div]) ++ ["("%char])) s = print e ++ [")"%char]) as ->.
  { rewrite S1. change ("("%char :: print e ++ [")"%char]) with (["("%char] ++ print e ++ [")"%char]).
    rewrite app_assoc. apply skipn_length_app. }
  replace (length ((a ++ [opchar div]) ++ "("%char :: print e) - S (length a) - 1) with (length (print e))
    by (rewrite !app_length; cbn [length]; lia).
  rewrite firstn_length_app. reflexivity.
Qed.

Lemma word_not_op s : plain s -> str_eqb s $"*" = false /\ str_eqb s $"/" = false.
Proof.
  intro P. split; apply str_eqb_neq; intros ->; vm_compute in P; discriminate.
Qed.

Definition denotes (root : node) (l : Z -> DerivedUnit) : Prop :=
  forall sg acc, flatten root sg acc = Ok (acc ++ l sg).

Lemma denotes_word s : plain s -> denotes (Node s Null Null) (fun sg => [(1%Q, s, sg)]).
Proof. intros P sg acc. destruct (word_not_op s P) as [A B]. cbn [flatten]. rewrite A, B. reflexivity. Qed.

Lemma denotes_op div l r a b : denotes l a -> denotes r b ->
  denotes (Node [opchar div] l r) (fun sg => a sg ++ b (if div then - sg else sg)%Z).
Proof.
  intros A B sg acc. destruct div; cbn [flatten opchar].
  - replace (str_eqb ["/"%char] $"*") with false by reflexivity.
    replace (str_eqb ["/"%char] $"/") with true by reflexivity.
    rewrite A. cbn [bind]. rewrite B, app_assoc. reflexivity.
  - replace (str_eqb ["*"%char] $"*") with true by reflexivity.
    rewrite A. cbn [bind]. rewrite B, app_assoc. reflexivity.
Qed.

Lemma parse_expr e : wf e -> forall n, length (print e) < n ->
  exists root, parseUnitNode n (print e) = Ok root /\ denotes root (fun sg => leaves sg e).
Proof.
  induction e using uexpr_mut with
    (P0 := fun t => (forall s, In s (symbols_term t) -> s <> [] /\ plain s) -> match t with USym _ => True | UPar e =>
      forall n, length (print e) < n ->
      exists root, parseUnitNode n (print e) = Ok root /\ denotes root (fun sg => leaves sg e) end); auto.
  - intros W n L. destruct n as [|n]; [lia|]. destruct t as [s|e]; cbn [print print_term leaves leaves_term].
    + destruct (W s (or_introl eq_refl)) as [N P]. rewrite (parse_word n s N P).
      eexists. split; [reflexivity|]. apply denotes_word; exact P.
    + rewrite parse_paren by exact W. apply IHe; [exact W|].
      cbn [print print_term] in L. rewrite !app_length in L. cbn in L. lia.
  - intros W n L. destruct n as [|n]; [lia|].
    assert (We : wf e) by (intros s I; apply W; cbn [symbols]; apply in_or_app; auto).
    cbn [print] in L. rewrite app_length in L.
    destruct (IHe We n) as (l & El & Dl); [cbn [length] in L; lia|].
    destruct t as [s|e']; cbn [print print_term leaves leaves_term].
    + destruct (W s) as [N P]; [cbn [symbols symbols_term]; apply in_or_app; right; left; reflexivity|].
      rewrite parse_op_word by (auto using print_nonempty). rewrite El. cbn [bind].
      eexists. split; [reflexivity|].
      apply (denotes_op div l (Node s Null Null) _ (fun sg => [(1%Q, s, sg)])); [exact Dl|apply denotes_word; exact P].
    + assert (We' : wf e') by (intros s I; apply W; cbn [symbols symbols_term]; apply in_or_app; auto).
      rewrite parse_op_paren by exact We'. rewrite El. cbn [bind].
      destruct (IHe0 We' n) as (r & Er & Dr).
      { cbn [print_term length] in L. rewrite !app_length in L. cbn in L. lia. }
      rewrite Er. cbn [bind]. eexists. split; [reflexivity|].
      apply (denotes_op div l r _ (fun sg => leaves sg e')); assumption.
Qed.

Lemma parseUnit_print e : wf e -> parseUnit (print e) = Ok (leaves 1 e).
Proof.
  intro W. unfold parseUnit. destruct (parse_expr e W (S (length (print e)))) as (r & E & D); [lia|].
  rewrite E. cbn [bind]. rewrite D. reflexivity.
Qed.

(* ---- conversion ---- *)
Lemma flatten_factor root : forall sg acc du, flatten root sg acc = Ok du ->
  Forall (fun u => su_factor u = 1%Q) acc -> Forall (fun u => su_factor u = 1%Q) du.
Proof.
  induction root as [|s l IHl r IHr]; intros sg acc du; cbn [flatten]; [discriminate|].
  destruct (str_eqb s $"*"), (str_eqb s $"/"); try (destruct (flatten l sg acc) as [a| |] eqn:E; try discriminate;
    cbn [bind]; intros F H; eapply IHr; [exact F|]; eapply IHl; eauto).
  intros [= <-] H. apply Forall_app. split; auto.
Qed.

Lemma parseUnit_factor s du : parseUnit s = Ok du -> Forall (fun u => su_factor u = 1%Q) du.
Proof.
  unfold parseUnit. destruct (parseUnitNode _ s) as [r| |]; try discriminate. cbn [bind]. intro H.
  eapply flatten_factor; eauto.
Qed.

Lemma du_value_pos du : Forall (fun u => su_factor u = 1%Q) du -> du_known du = true -> (0 < du_value du)%Q.
Proof.
  induction du as [|x du IH]; intros H K; cbn [du_value]; [reflexivity|].
  inversion H as [|? ? H1 H2]; subst. cbn [du_known forallb] in K. apply andb_true_iff in K as [K1 K2].
  rewrite H1. apply Qmult_lt_0_compat; [|auto].
  apply Qmult_lt_0_compat; [reflexivity|].
  apply Qpower_0_lt. apply factor_known; exact K1.
Qed.

Lemma check_spec pf pt :
  checkConvertibleUnits pf pt = Ok tt <->
  du_known pf = true /\ du_known pt = true /\ forall k, du_dim pf k = du_dim pt k.
Proof.
  unfold checkConvertibleUnits. destruct (du_known pf) eqn:Kf.
  - destruct (dimensionDU_known pf [] Kf) as (df & -> & Gf). cbn [bind].
    destruct (du_known pt) eqn:Kt.
    + destruct (dimensionDU_known pt [] Kt) as (dt & -> & Gt). cbn [bind].
      destruct (dim_eqb df dt) eqn:E.
      * split; auto. intros _. repeat split; auto. intro k. pose proof (proj1 (dim_eqb_spec _ _) E k) as H.
        rewrite Gf, Gt in H. cbn in H. exact H.
      * split; [discriminate|]. intros (_ & _ & H). enough (dim_eqb df dt = true) by congruence.
        apply dim_eqb_spec. intro k. rewrite Gf, Gt, H. reflexivity.
    + rewrite (dimensionDU_unknown pt [] Kt). cbn [bind]. split; [discriminate|]. intros (_ & ? & _); discriminate.
  - rewrite (dimensionDU_unknown pf [] Kf). cbn [bind]. split; [discriminate|]. intros (? & _); discriminate.
Qed.

Lemma check_safe pf pt : checkConvertibleUnits pf pt <> UB.
Proof.
  unfold checkConvertibleUnits. destruct (du_known pf) eqn:Kf.
  - destruct (dimensionDU_known pf [] Kf) as (df & -> & Gf). cbn [bind].
    destruct (du_known pt) eqn:Kt.
    + destruct (dimensionDU_known pt [] Kt) as (dt & -> & Gt). cbn [bind]. destruct (dim_eqb df dt); discriminate.
    + rewrite (dimensionDU_unknown pt [] Kt). discriminate.
  - rewrite (dimensionDU_unknown pf [] Kf). discriminate.
Qed.

Lemma check_cases pf pt :
  (checkConvertibleUnits pf pt = Ok tt /\ du_known pf = true /\ du_known pt = true /\ forall k, du_dim pf k = du_dim pt k) \/
  (checkConvertibleUnits pf pt = Err /\ ~ (du_known pf = true /\ du_known pt = true /\ forall k, du_dim pf k = du_dim pt k)).
Proof.
  pose proof (check_spec pf pt) as S. pose proof (check_safe pf pt) as U.
  destruct (checkConvertibleUnits pf pt) as [[]| |]; [left|right|]; intuition congruence.
Qed.

Lemma slope_du a b pa pb : isTemp a && isTemp b = false -> parseUnit a = Ok pa -> parseUnit b = Ok pb ->
  (du_known pa = true /\ du_known pb = true /\ (forall k, du_dim pa k = du_dim pb k) ->
     slope a b = Ok (du_value pa / du_value pb)%Q) /\
  (~ (du_known pa = true /\ du_known pb = true /\ (forall k, du_dim pa k = du_dim pb k)) -> slope a b = Err).
Proof.
  intros T Pa Pb. unfold slope. rewrite T, Pa, Pb. cbn [bind].
  destruct (check_cases pa pb) as [(-> & Ka & Kb & D)|(-> & N)]; split; intro H; cbn [bind]; auto.
  - rewrite (factorDU_known _ Ka), (factorDU_known _ Kb). reflexivity.
  - exfalso. apply H. auto.
  - contradiction.
Qed.

Lemma convertible_du a b : isTemp a && isTemp b = false ->
  (convertible a b = Ok true <-> exists pa pb, parseUnit a = Ok pa /\ parseUnit b = Ok pb /\
    du_known pa = true /\ du_known pb = true /\ forall k, du_dim pa k = du_dim pb k).
Proof.
  intro T. unfold convertible. rewrite T.
  destruct (parseUnit a) as [pa| |]; cbn [bind]; try (split; [discriminate|intros (? & ? & ? & _); discriminate]).
  destruct (parseUnit b) as [pb| |]; cbn [bind]; try (split; [discriminate|intros (? & ? & _ & ? & _); discriminate]).
  assert (Q : (bind (dimensionDU pa []) (fun df => bind (dimensionDU pb []) (fun dt => Ok (dim_eqb df dt))) = Ok true)
    <-> checkConvertibleUnits pa pb = Ok tt).
  { unfold checkConvertibleUnits. destruct (dimensionDU pa []) as [da| |]; cbn [bind]; try (split; discriminate).
    destruct (dimensionDU pb []) as [db| |]; cbn [bind]; try (split; discriminate).
    destruct (dim_eqb da db); split; intro; congruence. }
  rewrite Q, check_spec. split.
  - intros (A & B & C). exists pa, pb. auto.
  - intros (pa' & pb' & [= <-] & [= <-] & H). exact H.
Qed.

(* ---- temperatures ---- *)
Definition scale (s : str) : Q * Q := match find s temperature_scales with Some p => p | None => (1, 0)%Q end.

Lemma temp_in s : isTemp s = true <-> In s (map fst temperature_scales).
Proof.
  unfold isTemp. destruct (find s temperatureUnitsMap) eqn:E.
  - split; auto. intros _. apply find_in in E. apply (in_map fst) in E.
    cbn [map fst temperatureUnitsMap temperature_scales In] in *. tauto.
  - apply find_none in E. split; [discriminate|]. intro H. exfalso. apply E.
    cbn [map fst temperatureUnitsMap temperature_scales In] in *. tauto.
Qed.

Lemma depth_big : depth = S (S (S (S (S (pred (pred (pred (pred (pred depth))))))))).
Proof. vm_compute. reflexivity. Qed.

Lemma temp_scale s : isTemp s = true -> (0 < fst (scale s))%Q /\ forall x,
  (exists y, toKelvin depth x s = Ok y /\ (y == (x - snd (scale s)) / fst (scale s))%Q) /\
  (exists y, fromKelvin depth x s = Ok y /\ (y == fst (scale s) * x + snd (scale s))%Q).
Proof.
  rewrite temp_in. rewrite depth_big. generalize (pred (pred (pred (pred (pred depth))))) as n.
  intros n H. cbn [map fst temperature_scales In] in H.
  repeat destruct H as [<- | H]; try contradiction; (split; [reflexivity|]); intro x;
    cbn [toKelvin fromKelvin find temperatureUnitsMap str_eqb list_ascii_of_string Ascii.eqb Bool.eqb andb omap bind];
    unfold scale;
    cbn [find temperature_scales str_eqb list_ascii_of_string Ascii.eqb Bool.eqb andb fst snd];
    split; eexists; (split; [reflexivity|]); field; try discriminate.
Qed.

Definition taffine (a b : str) : Q * Q :=
  (fst (scale b) / fst (scale a), snd (scale b) - fst (scale b) / fst (scale a) * snd (scale a))%Q.

Lemma convertTemperature_spec a b x : isTemp a = true -> isTemp b = true ->
  exists y, convertTemperature x a b = Ok y /\ (y == fst (taffine a b) * x + snd (taffine a b))%Q.
Proof.
  intros A B. unfold convertTemperature. rewrite A, B.
  destruct (temp_scale a A) as [Pa Sa]. destruct (Sa x) as [(y & -> & Ey) _]. cbn [bind].
  destruct (temp_scale b B) as [Pb Sb]. destruct (Sb y) as [_ (z & -> & Ez)].
  exists z. split; [reflexivity|]. rewrite Ez, Ey. unfold taffine. cbn [fst snd]. field. lra.
Qed.

(* ---- affine maps ---- *)
Definition affine (a b : str) (al be : Q) : Prop :=
  forall x, exists y, convert x a b = Ok y /\ (y == al * x + be)%Q.

Lemma affine_temp a b : isTemp a = true -> isTemp b = true -> affine a b (fst (taffine a b)) (snd (taffine a b)).
Proof.
  intros A B x. destruct (temp_scale a A) as [Pa _]. unfold convert. destruct (str_eqb_spec a b) as [<-|N].
  - exists x. split; [reflexivity|]. unfold taffine. cbn [fst snd]. field. lra.
  - unfold slope, intercept. rewrite A, B. cbn [andb].
    destruct (convertTemperature_spec a b 1 A B) as (y1 & -> & E1).
    destruct (convertTemperature_spec a b 0 A B) as (y0 & -> & E0). cbn [bind].
    eexists. split; [reflexivity|]. rewrite E1, E0. ring.
Qed.

Definition mag (s : str) : Q := match parseUnit s with Ok du => du_value du | _ => 1%Q end.

Lemma affine_du a b : isTemp a && isTemp b = false -> convertible a b = Ok true ->
  (0 < mag a)%Q /\ (0 < mag b)%Q /\ affine a b (mag a / mag b)%Q 0.
Proof.
  intros T C. apply (convertible_du a b T) in C as (pa & pb & Ea & Eb & Ka & Kb & D).
  assert (Pa : (0 < mag a)%Q) by (unfold mag; rewrite Ea; apply du_value_pos; eauto using parseUnit_factor).
  assert (Pb : (0 < mag b)%Q) by (unfold mag; rewrite Eb; apply du_value_pos; eauto using parseUnit_factor).
  repeat split; auto. intro x. unfold convert. destruct (str_eqb_spec a b) as [<-|N].
  - exists x. split; [reflexivity|]. field. lra.
  - rewrite (proj1 (slope_du a b pa pb T Ea Eb) (conj Ka (conj Kb D))). cbn [bind].
    unfold intercept. rewrite T. cbn [bind]. eexists. split; [reflexivity|].
    unfold mag in *. rewrite Ea, Eb in *. field. lra.
Qed.

Definition word_parses (s : str) : bool :=
  match parseUnit s with
  | Ok [(q, s', n)] => Qeq_bool q 1 && str_eqb s' s && (n =? 1)%Z && (dim_get (match dimension depth s 1 [] with Ok d => d | _ => [] end) s =? 1)%Z
  | _ => false
  end.
Lemma temps_parse : forallb word_parses (map fst temperature_scales) = true.
Proof. vm_compute. reflexivity. Qed.
Lemma temps_dim : forallb (fun a => forallb (fun b =>
  str_eqb a b || negb (unit_dim a a =? unit_dim b a)%Z) (map fst temperature_scales)) (map fst temperature_scales) = true.
Proof. vm_compute. reflexivity. Qed.

Lemma temp_parse s : isTemp s = true -> exists q, parseUnit s = Ok [(q, s, 1%Z)].
Proof.
  intro T. apply temp_in in T. pose proof temps_parse as H. rewrite forallb_forall in H. specialize (H _ T).
  unfold word_parses in H. destruct (parseUnit s) as [[|[[q s'] n] [|]]| |]; try discriminate.
  apply andb_true_iff in H as [H _]. apply andb_true_iff in H as [H H3]. apply andb_true_iff in H as [H1 H2].
  apply str_eqb_eq in H2. apply Z.eqb_eq in H3. subst. eauto.
Qed.

Lemma temp_same a b pa pb : isTemp a = true -> isTemp b = true -> parseUnit a = Ok pa -> parseUnit b = Ok pb ->
  (forall k, du_dim pa k = du_dim pb k) -> a = b.
Proof.
  intros A B Ea Eb D. destruct (temp_parse a A) as (qa & Ea'). destruct (temp_parse b B) as (qb & Eb').
  rewrite Ea in Ea'. rewrite Eb in Eb'. injection Ea' as ->. injection Eb' as ->.
  specialize (D a). cbn [du_dim su_power su_symbol fst snd] in D.
  apply temp_in in A, B. pose proof temps_dim as H. rewrite forallb_forall in H. specialize (H _ A). cbv beta in H.
  rewrite forallb_forall in H. specialize (H _ B). cbv beta in H. apply orb_true_iff in H as [H|H].
  - apply str_eqb_eq; exact H.
  - exfalso. apply negb_true_iff in H. apply Z.eqb_neq in H. apply H. lia.
Qed.

Lemma convertible_affine a b : convertible a b = Ok true -> exists al be, (0 < al)%Q /\ affine a b al be.
Proof.
  intro C. destruct (isTemp a && isTemp b) eqn:T.
  - apply andb_true_iff in T as [A B]. exists (fst (taffine a b)), (snd (taffine a b)).
    split; [|apply affine_temp; auto].
    destruct (temp_scale a A) as [Pa _]. destruct (temp_scale b B) as [Pb _].
    unfold taffine. cbn [fst]. apply Qlt_shift_div_l; auto. lra.
  - destruct (affine_du a b T C) as (Pa & Pb & H). exists (mag a / mag b)%Q, 0%Q. split; auto.
    apply Qlt_shift_div_l; auto. lra.
Qed.

Lemma convertible_sym a b : convertible a b = Ok true -> convertible b a = Ok true.
Proof.
  intro C. destruct (isTemp a && isTemp b) eqn:T.
  - unfold convertible. rewrite andb_comm, T. reflexivity.
  - apply (convertible_du a b T) in C as (pa & pb & Ea & Eb & Ka & Kb & D).
    apply convertible_du; [rewrite andb_comm; exact T|]. exists pb, pa. auto 10.
Qed.

Lemma convert_roundtrip a b : convertible a b = Ok true -> forall x,
  exists y z, convert x a b = Ok y /\ convert y b a = Ok z /\ (z == x)%Q.
Proof.
  intros C x. destruct (isTemp a && isTemp b) eqn:T.
  - apply andb_true_iff in T as [A B].
    destruct (affine_temp a b A B x) as (y & Ey & Qy). destruct (affine_temp b a B A y) as (z & Ez & Qz).
    exists y, z. repeat split; auto. rewrite Qz, Qy. unfold taffine. cbn [fst snd].
    destruct (temp_scale a A) as [Pa _]. destruct (temp_scale b B) as [Pb _]. field. lra.
  - destruct (affine_du a b T C) as (Pa & Pb & H).
    pose proof (convertible_sym a b C) as C'. rewrite andb_comm in T.
    destruct (affine_du b a T C') as (_ & _ & H').
    destruct (H x) as (y & Ey & Qy). destruct (H' y) as (z & Ez & Qz). exists y, z. repeat split; auto.
    rewrite Qz, Qy. field. lra.
Qed.

Lemma convert_increasing a b : convertible a b = Ok true -> forall x y, (x < y)%Q ->
  exists x' y', convert x a b = Ok x' /\ convert y a b = Ok y' /\ (x' < y')%Q.
Proof.
  intros C x y L. destruct (convertible_affine a b C) as (al & be & P & H).
  destruct (H x) as (x' & Ex & Qx). destruct (H y) as (y' & Ey & Qy). exists x', y'. repeat split; auto.
  rewrite Qx, Qy. apply Qplus_lt_le_compat; [|apply Qle_refl].
  apply (proj2 (Qmult_lt_l _ _ _ P)). exact L.
Qed.

Lemma convert_affine a b : convertible a b = Ok true -> forall x y t, 
  exists x' y' z', convert x a b = Ok x' /\ convert y a b = Ok y' /\ convert (t * x + (1 - t) * y) a b = Ok z' /\
    (z' == t * x' + (1 - t) * y')%Q.
Proof.
  intros C x y t. destruct (convertible_affine a b C) as (al & be & P & H).
  destruct (H x) as (x' & Ex & Qx). destruct (H y) as (y' & Ey & Qy).
  destruct (H (t * x + (1 - t) * y)%Q) as (z' & Ez & Qz). exists x', y', z'. repeat split; auto.
  rewrite Qz, Qx, Qy. ring.
Qed.

Lemma convert_self x a : convert x a a = Ok x.
Proof. unfold convert. rewrite str_eqb_refl. reflexivity. Qed.

Lemma convert_compat a b x x' : convertible a b = Ok true -> (x == x')%Q ->
  exists y y', convert x a b = Ok y /\ convert x' a b = Ok y' /\ (y == y')%Q.
Proof.
  intros C E. destruct (convertible_affine a b C) as (al & be & _ & H).
  destruct (H x) as (y & Ey & Qy). destruct (H x') as (y' & Ey' & Qy'). exists y, y'. repeat split; auto.
  rewrite Qy, Qy', E. reflexivity.
Qed.

Lemma convert_via a b c : convertible a b = Ok true -> convertible b c = Ok true -> convertible a c = Ok true ->
  forall x, exists y z w, convert x a b = Ok y /\ convert y b c = Ok z /\ convert x a c = Ok w /\ (z == w)%Q.
Proof.
  intros AB BC AC x.
  destruct (isTemp a) eqn:A, (isTemp b) eqn:B, (isTemp c) eqn:C.
  - destruct (affine_temp a b A B x) as (y & Ey & Qy). destruct (affine_temp b c B C y) as (z & Ez & Qz).
    destruct (affine_temp a c A C x) as (w & Ew & Qw). exists y, z, w. repeat split; auto.
    rewrite Qz, Qy, Qw. unfold taffine. cbn [fst snd].
    destruct (temp_scale a A) as [Pa _]. destruct (temp_scale b B) as [Pb _]. field. lra.
  - apply convertible_du in BC as (pb & pc & Eb & Ec & Kb & Kc & D1); [|rewrite B, C; reflexivity].
    pose proof AC as AC'. apply convertible_du in AC as (pa & pc' & Ea & Ec' & Ka & Kc' & D2); [|rewrite A, C; reflexivity].
    rewrite Ec in Ec'. injection Ec' as <-.
    assert (a = b) as <- by (apply (temp_same a b pa pb); auto; intro k; rewrite D1, D2; reflexivity).
    destruct (convertible_affine a c AC') as (al & be & _ & H). destruct (H x) as (w & Ew & _).
    exists x, w, w. rewrite convert_self. repeat split; auto; reflexivity.
  - apply convertible_du in BC as (pb & pc & Eb & Ec & Kb & Kc & D1); [|rewrite B, C; reflexivity].
    pose proof AB as AB'.
    apply convertible_du in AB as (pa & pb' & Ea & Eb' & Ka & Kb' & D2); [|rewrite A, B; reflexivity].
    rewrite Eb in Eb'. injection Eb' as <-.
    assert (a = c) as <- by (apply (temp_same a c pa pc); auto; intro k; rewrite D2, D1; reflexivity).
    destruct (convert_roundtrip a b AB' x) as (y & z & Ey & Ez & Q). exists y, z, x. rewrite convert_self. auto.
  - destruct (affine_du a b) as (Pa & Pb & H1); auto; [rewrite A, B; reflexivity|].
    destruct (affine_du b c) as (_ & Pc & H2); auto; [rewrite B; reflexivity|].
    destruct (affine_du a c) as (_ & _ & H3); auto; [rewrite A, C; reflexivity|].
    destruct (H1 x) as (y & Ey & Qy). destruct (H2 y) as (z & Ez & Qz). destruct (H3 x) as (w & Ew & Qw).
    exists y, z, w. repeat split; auto. rewrite Qz, Qy, Qw. field. lra.
  - apply convertible_du in AB as (pa & pb & Ea & Eb & Ka & Kb & D1); [|rewrite A; reflexivity].
    pose proof AC as AC'. apply convertible_du in AC as (pa' & pc & Ea' & Ec & Ka' & Kc & D2); [|rewrite A; reflexivity].
    rewrite Ea in Ea'. injection Ea' as <-.
    assert (b = c) as <- by (apply (temp_same b c pb pc); auto; intro k; rewrite <- D1, D2; reflexivity).
    destruct (convertible_affine a b AC') as (al & be & _ & H). destruct (H x) as (w & Ew & _).
    exists w, w, w. rewrite convert_self. repeat split; auto; reflexivity.
  - destruct (affine_du a b) as (Pa & Pb & H1); auto; [rewrite A; reflexivity|].
    destruct (affine_du b c) as (_ & Pc & H2); auto; [rewrite C, andb_comm; reflexivity|].
    destruct (affine_du a c) as (_ & _ & H3); auto; [rewrite A; reflexivity|].
    destruct (H1 x) as (y & Ey & Qy). destruct (H2 y) as (z & Ez & Qz). destruct (H3 x) as (w & Ew & Qw).
    exists y, z, w. repeat split; auto. rewrite Qz, Qy, Qw. field. lra.
  - destruct (affine_du a b) as (Pa & Pb & H1); auto; [rewrite A; reflexivity|].
    destruct (affine_du b c) as (_ & Pc & H2); auto; [rewrite B; reflexivity|].
    destruct (affine_du a c) as (_ & _ & H3); auto; [rewrite A; reflexivity|].
    destruct (H1 x) as (y & Ey & Qy). destruct (H2 y) as (z & Ez & Qz). destruct (H3 x) as (w & Ew & Qw).
    exists y, z, w. repeat split; auto. rewrite Qz, Qy, Qw. field. lra.
  - destruct (affine_du a b) as (Pa & Pb & H1); auto; [rewrite A; reflexivity|].
    destruct (affine_du b c) as (_ & Pc & H2); auto; [rewrite B; reflexivity|].
    destruct (affine_du a c) as (_ & _ & H3); auto; [rewrite A; reflexivity|].
    destruct (H1 x) as (y & Ey & Qy). destruct (H2 y) as (z & Ez & Qz). destruct (H3 x) as (w & Ew & Qw).
    exists y, z, w. repeat split; auto. rewrite Qz, Qy, Qw. field. lra.
Qed.

Lemma convert_temperature a b sa ta sb tb x :
  In (a, (sa, ta)) temperature_scales -> In (b, (sb, tb)) temperature_scales ->
  exists y, convert x a b = Ok y /\ (y == sb * ((x - ta) / sa) + tb)%Q.
Proof.
  intros A B.
  assert (U : forall s p, In (s, p) temperature_scales -> isTemp s = true /\ scale s = p).
  { intros s p H. split; [apply temp_in; apply (in_map fst) in H; exact H|].
    cbn [temperature_scales In] in H. repeat destruct H as [[= <- <-]|H]; try reflexivity. contradiction. }
  destruct (U _ _ A) as [TA SA]. destruct (U _ _ B) as [TB SB].
  destruct (affine_temp a b TA TB x) as (y & Ey & Qy). exists y. split; auto.
  destruct (temp_scale a TA) as [Pa _]. rewrite SA in Pa. cbn [fst] in Pa.
  rewrite Qy. unfold taffine. rewrite SA, SB. cbn [fst snd]. field. lra.
Qed.

Lemma convert_inconvertible a b x : a <> b -> convertible a b = Ok false -> convert x a b = Err.
Proof.
  intros N. unfold convertible, convert, slope. rewrite (proj2 (str_eqb_neq a b) N).
  destruct (isTemp a && isTemp b); [discriminate|].
  destruct (parseUnit a) as [pa| |]; try discriminate. destruct (parseUnit b) as [pb| |]; try discriminate. cbn [bind].
  unfold checkConvertibleUnits. destruct (dimensionDU pa []) as [da| |]; try discriminate.
  destruct (dimensionDU pb []) as [db| |]; try discriminate. cbn [bind].
  destruct (dim_eqb da db); [discriminate|reflexivity].
Qed.

(* ---- expressions ---- *)
Definition temp_word (e : uexpr) : Prop := exists s, e = UTerm (USym s) /\ isTemp s = true.

Lemma slope_expr e1 e2 : wf e1 -> wf e2 ->
  (forall s, In s (symbols e1 ++ symbols e2) -> known s = true) ->
  isTemp (print e1) && isTemp (print e2) = false ->
  ((forall k, edim unit_dim e1 k = edim unit_dim e2 k) ->
     exists q, slope (print e1) (print e2) = Ok q /\ (q == eval unit_value e1 / eval unit_value e2)%Q) /\
  (forall k, edim unit_dim e1 k <> edim unit_dim e2 k -> slope (print e1) (print e2) = Err).
Proof.
  intros W1 W2 K T.
  destruct (slope_du _ _ _ _ T (parseUnit_print e1 W1) (parseUnit_print e2 W2)) as [S1 S2].
  assert (K1 : forall s, In s (symbols e1) -> known s = true) by (intros; apply K, in_or_app; auto).
  assert (K2 : forall s, In s (symbols e2) -> known s = true) by (intros; apply K, in_or_app; auto).
  split.
  - intro D. rewrite S1.
    + eexists. split; [reflexivity|]. rewrite !leaves_value by auto. reflexivity.
    + rewrite !leaves_known, !forallb_forall. split; [exact K1|]. split; [exact K2|].
      intro k. rewrite !leaves_dim, D. reflexivity.
  - intros k N. apply S2. intros (_ & _ & D). specialize (D k). rewrite !leaves_dim in D. lia.
Qed.

Lemma slope_unknown e1 e2 s : wf e1 -> wf e2 -> In s (symbols e1 ++ symbols e2) -> known s = false ->
  slope (print e1) (print e2) = Err.
Proof.
  intros W1 W2 I K.
  assert (N : ~ (du_known (leaves 1 e1) = true /\ du_known (leaves 1 e2) = true)).
  { rewrite !leaves_known, !forallb_forall. intros [A B]. apply in_app_or in I as [I|I]; [apply A in I|apply B in I]; congruence. }
  destruct (isTemp (print e1) && isTemp (print e2)) eqn:T.
  - exfalso. apply N. apply andb_true_iff in T as [A B].
    destruct (temp_parse _ A) as (qa & Ea). destruct (temp_parse _ B) as (qb & Eb).
    rewrite (parseUnit_print _ W1) in Ea. rewrite (parseUnit_print _ W2) in Eb. injection Ea as ->. injection Eb as ->.
    cbn [du_known forallb su_symbol fst snd]. unfold known. rewrite A, B. split; reflexivity.
  - apply (proj2 (slope_du _ _ _ _ T (parseUnit_print e1 W1) (parseUnit_print e2 W2))).
    intros (A & B & _). apply N. auto.
Qed.

(* ---- parenthesis-free strings ---- *)
Lemma print_flat_snoc w rest div w' :
  print_flat w (rest ++ [(div, w')]) = print_flat w rest ++ opchar div :: w'.
Proof.
  revert w. induction rest as [|[d x] rest IH]; intro w; cbn [app print_flat]; [reflexivity|].
  rewrite IH, <- app_assoc. reflexivity.
Qed.

Lemma print_flat_nonempty w rest : w <> [] -> print_flat w rest <> [].
Proof. destruct rest as [|[d x] rest]; cbn; auto. destruct w; [congruence|discriminate]. Qed.

Definition flat_leaves (w : str) (rest : list (bool * str)) : DerivedUnit :=
  (1%Q, w, 1%Z) :: map (fun p : bool * str => (1%Q, snd p, if fst p then (-1)%Z else 1%Z)) rest.

Lemma parse_flat w rest : w <> [] -> plain w -> Forall (fun p => plain (snd p)) rest ->
  parseUnit (print_flat w rest) = Ok (flat_leaves w rest).
Proof.
  intros N P H. unfold parseUnit.
  enough (E : forall n, length (print_flat w rest) < n -> exists root, parseUnitNode n (print_flat w rest) = Ok root /\
    forall acc, flatten root 1 acc = Ok (acc ++ flat_leaves w rest)).
  { destruct (E (S (length (print_flat w rest)))) as (r & -> & D); [lia|]. cbn [bind]. rewrite D. reflexivity. }
  induction rest as [|[d x] rest IH] using rev_ind; intros n L.
  - cbn [print_flat] in *. destruct n as [|n]; [lia|]. rewrite parse_word by auto.
    eexists. split; [reflexivity|]. intro acc. apply (denotes_word w P).
  - rewrite print_flat_snoc in *. rewrite app_length in L. cbn in L. destruct n as [|n]; [lia|].
    apply Forall_app in H as [H1 H2]. inversion H2 as [|? ? Px _]; subst. cbn in Px.
    rewrite parse_op_word by (auto using print_flat_nonempty).
    destruct (IH H1 n) as (r & -> & D); [lia|]. cbn [bind].
    eexists. split; [reflexivity|]. intro acc. unfold flat_leaves. rewrite map_app. cbn [map fst snd].
    destruct (word_not_op x Px) as [Na Nb]. destruct d; cbn [flatten opchar].
    + replace (str_eqb ["/"%char] $"*") with false by reflexivity.
      replace (str_eqb ["/"%char] $"/") with true by reflexivity.
      rewrite D. cbn [bind]. rewrite Na, Nb, <- app_assoc. reflexivity.
    + replace (str_eqb ["*"%char] $"*") with true by reflexivity.
      rewrite D. cbn [bind]. rewrite Na, Nb, <- app_assoc. reflexivity.
Qed.

Lemma parse_flat_empty rest : Forall (fun p => plain (snd p)) rest -> parseUnit (print_flat [] rest) = UB.
Proof.
  intro H. unfold parseUnit.
  enough (E : rest = [] \/ (forall n, parseUnitNode n (print_flat [] rest) = UB)).
  { destruct E as [-> | E]; [reflexivity|]. rewrite E. reflexivity. }
  destruct rest as [|r0 rest]; [left; reflexivity|right].
  revert r0 H. induction rest as [|[d x] rest IH] using rev_ind; intros [d0 x0] H n; (destruct n as [|n]; [reflexivity|]).
  - inversion H as [|? ? P _]; subst. cbn [snd] in P. cbn [print_flat app].
    cbn [parseUnitNode].
    assert (L : exists c, last_opt (opchar d0 :: x0) = Some c /\ Ascii.eqb c ")"%char = false).
    { destruct x0 as [|c w _] using rev_ind.
      - exists (opchar d0). split; [reflexivity|destruct d0; reflexivity].
      - exists c. split; [rewrite app_comm_cons; apply last_opt_snoc|].
        assert (I : In c (w ++ [c])) by (apply in_or_app; right; left; reflexivity).
        apply (special_false _ (plain_char _ _ P I)). }
    destruct L as (c & -> & ->).
    pose proof (find_last_op_app [] (opchar d0) x0 (opchar_isop d0) (plain_noop _ P)) as F.
    cbn [app length] in F. rewrite F. reflexivity.
  - rewrite app_comm_cons in H. apply Forall_app in H as [H1 H2]. inversion H2 as [|? ? Px _]; subst. cbn in Px.
    rewrite app_comm_cons, print_flat_snoc.
    rewrite parse_op_word; auto; [rewrite (IH _ H1); reflexivity|]. cbn [print_flat app]. discriminate.
Qed.

Lemma flat_surjective s : (forall c, In c s -> c <> "("%char /\ c <> ")"%char) ->
  exists w rest, s = print_flat w rest /\ plain w /\ Forall (fun p => plain (snd p)) rest.
Proof.
  induction s as [|c s IH]; intro H; [exists [], []; repeat split; auto|].
  destruct IH as (w & rest & -> & P & F); [intros; apply H; right; auto|].
  destruct (H c (or_introl eq_refl)) as [N1 N2].
  destruct (Ascii.eqb_spec c "*"%char) as [->|N3].
  { exists [], ((false, w) :: rest). repeat split; auto. }
  destruct (Ascii.eqb_spec c "/"%char) as [->|N4].
  { exists [], ((true, w) :: rest). repeat split; auto. }
  exists (c :: w), rest. split; [destruct rest as [|[d x] rest]; reflexivity|]. split; auto.
  unfold plain. cbn [forallb]. apply andb_true_iff. split; [|exact P].
  unfold special. cbn [existsb list_ascii_of_string].
  apply Ascii.eqb_neq in N1, N2, N3, N4. rewrite N1, N2, N3, N4. reflexivity.
Qed.

Lemma known_nonempty : known [] = false.
Proof. vm_compute. reflexivity. Qed.

Lemma flat_unknown w rest b pb s : plain w -> Forall (fun p => plain (snd p)) rest -> w <> [] ->
  In s (w :: map snd rest) -> known s = false -> parseUnit b = Ok pb ->
  slope (print_flat w rest) b = Err /\ slope b (print_flat w rest) = Err.
Proof.
  intros P F N I K Eb. pose proof (parse_flat w rest N P F) as Ea.
  assert (U : du_known (flat_leaves w rest) = false).
  { apply not_true_iff_false. intro H. unfold du_known in H. rewrite forallb_forall in H.
    destruct I as [->|I].
    - specialize (H _ (or_introl eq_refl)). cbn in H. congruence.
    - apply in_map_iff in I as ([d x] & <- & I). 
      specialize (H (1%Q, x, if d then (-1)%Z else 1%Z)).
      cbn [su_symbol fst snd] in H, K. rewrite H in K; [discriminate|].
      right. apply in_map_iff. exists (d, x). auto. }
  assert (T : isTemp (print_flat w rest) = false).
  { destruct (isTemp (print_flat w rest)) eqn:T; auto. exfalso. destruct (temp_parse _ T) as (q & E).
    rewrite Ea in E. injection E as E1 E2. unfold du_known in U. cbn [flat_leaves forallb su_symbol fst snd] in U.
    unfold flat_leaves in *. destruct rest as [|? ?]; [|discriminate].
    cbn [map forallb] in U. unfold known in U. cbn [print_flat] in T.
    cbn [su_symbol fst snd] in U. rewrite T in U. discriminate. }
  split; eapply slope_du; eauto; try (rewrite T; reflexivity); try (rewrite T, andb_comm; reflexivity);
    intros (A & B & _); congruence.
Qed.
