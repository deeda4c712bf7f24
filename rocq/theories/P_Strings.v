From Verif Require Import Base M_Strings S_Strings.

(* ----------------------------------------------------------------- replace *)
Lemma is_prefix_spec p s : is_prefix p s = true <-> exists b, s = p ++ b.
Proof.
  revert s; induction p as [|x p IH]; intros s; cbn.
  - split; eauto.
  - destruct s as [|y s].
    + split; [discriminate|]. intros [b H]; discriminate.
    + rewrite andb_true_iff, Ascii.eqb_eq, IH. split.
      * intros [-> [b ->]]. exists b; reflexivity.
      * intros [b H]. injection H as -> ->. split; eauto.
Qed.

Lemma find_sub_some sub s k : find_sub sub s = Some k ->
  occurs_at sub s k /\ forall j, j < k -> ~ occurs_at sub s j.
Proof.
  revert k; induction s as [|c s IH]; intros k; cbn [find_sub].
  - destruct (is_prefix sub []) eqn:E; [|discriminate].
    intros [= <-]. apply is_prefix_spec in E as [b Hb]. split; [|intros; lia].
    exists [], b. auto.
  - destruct (is_prefix sub (c :: s)) eqn:E.
    + intros [= <-]. apply is_prefix_spec in E as [b Hb]. split; [|intros; lia].
      exists [], b. auto.
    + destruct (find_sub sub s) as [k'|] eqn:F; [|discriminate]. intros [= <-].
      destruct (IH k' eq_refl) as [(a & b & -> & Hk) Hmin]. split.
      * exists (c :: a), b. split; cbn; congruence.
      * intros [|j] Hj (a0 & b0 & H1 & H2).
        -- destruct a0; [|discriminate]. cbn in H1. assert (is_prefix sub (c :: a ++ sub ++ b) = true).
           { apply is_prefix_spec. eauto. } congruence.
        -- destruct a0 as [|x a0]; [discriminate|]. cbn in H1, H2. injection H1 as -> H1.
           apply (Hmin j); [lia|]. exists a0, b0. split; [assumption|lia].
Qed.

Lemma find_sub_none sub s : find_sub sub s = None -> forall k, ~ occurs_at sub s k.
Proof.
  induction s as [|c s IH]; cbn [find_sub].
  - destruct (is_prefix sub []) eqn:E; [discriminate|]. intros _ k (a & b & H & _).
    destruct a; [|discriminate]. cbn in H. assert (is_prefix sub [] = true) by (apply is_prefix_spec; eauto). congruence.
  - destruct (is_prefix sub (c :: s)) eqn:E; [discriminate|].
    destruct (find_sub sub s) as [k'|] eqn:F; [discriminate|]. intros _ k (a & b & H & Hk).
    destruct a as [|x a].
    + cbn in H. assert (is_prefix sub (c :: s) = true) by (apply is_prefix_spec; eauto). congruence.
    + cbn in H. injection H as -> ->. apply (IH eq_refl (length a)). exists a, b; auto.
Qed.

Lemma skipn_app_exact {A} (a b : list A) : skipn (length a) (a ++ b) = b.
Proof. rewrite skipn_app, skipn_all, Nat.sub_diag. reflexivity. Qed.
Lemma firstn_app_exact {A} (a b : list A) : firstn (length a) (a ++ b) = a.
Proof. rewrite firstn_app, firstn_all, Nat.sub_diag, firstn_O, app_nil_r. reflexivity. Qed.

Lemma find_from_app sub A R : find_from sub (A ++ R) (length A) = option_map (Nat.add (length A)) (find_sub sub R).
Proof.
  unfold find_from. rewrite app_length. destruct (Nat.ltb_spec (length A + length R) (length A)); [lia|].
  rewrite skipn_app_exact. reflexivity.
Qed.

Lemma replace_loop_spec sub new : sub <> [] -> forall fuel R A, length R + 1 < fuel ->
  exists r, Replaced sub new R r /\
    replace_loop fuel (A ++ R) sub new (find_from sub (A ++ R) (length A)) = Ok (A ++ r).
Proof.
  intros Hsub. induction fuel as [|fuel IH]; intros R A Hf; [lia|].
  rewrite find_from_app. cbn [replace_loop]. destruct (find_sub sub R) as [k|] eqn:F; cbn [option_map].
  - apply find_sub_some in F as [(a & b & -> & Hk) Hmin]. subst k.
    assert (E1 : firstn (length A + length a) (A ++ a ++ sub ++ b) = A ++ a).
    { rewrite <- app_length, app_assoc. apply firstn_app_exact. }
    assert (E2 : skipn (length A + length a + length sub) (A ++ a ++ sub ++ b) = b).
    { rewrite <- !app_length. replace (A ++ a ++ sub ++ b) with (((A ++ a) ++ sub) ++ b) by (rewrite <- !app_assoc; reflexivity).
      apply skipn_app_exact. }
    rewrite E1, E2.
    replace ((A ++ a) ++ new ++ b) with (((A ++ a) ++ new) ++ b) by (rewrite <- !app_assoc; reflexivity).
    replace (length A + length a + length new) with (length ((A ++ a) ++ new)) by (rewrite !app_length; reflexivity).
    destruct (IH b ((A ++ a) ++ new)) as (r & Hr & E).
    { rewrite !app_length in Hf. destruct sub; [congruence|]. cbn in Hf. lia. }
    exists (a ++ new ++ r). split.
    + apply Replaced_first; assumption.
    + rewrite E. f_equal. rewrite <- !app_assoc. reflexivity.
  - exists R. split.
    + apply Replaced_none. apply find_sub_none; assumption.
    + destruct fuel; [lia|]. reflexivity.
Qed.

Lemma Replaced_det sub new s r1 r2 : Replaced sub new s r1 -> Replaced sub new s r2 -> r1 = r2.
Proof.
  intros H; revert r2; induction H as [s Hn | a b b' Hm Hb IH]; intros r2 H2.
  - inversion H2 as [s' Hn' | a b b' Hm Hb]; subst; auto.
    exfalso. apply (Hn (length a)). exists a, b; auto.
  - remember (a ++ sub ++ b) as s eqn:Es. destruct H2 as [s' Hn' | a2 b2 b2' Hm2 Hb2].
    + exfalso. apply (Hn' (length a)). exists a, b; auto.
    + assert (length a2 = length a) as L.
      { destruct (lt_eq_lt_dec (length a2) (length a)) as [[h|h]|h]; [exfalso|auto|exfalso].
        - apply (Hm _ h). exists a2, b2. auto.
        - apply (Hm2 _ h). exists a, b. auto. }
      assert (a2 = a) as ->.
      { rewrite <- (firstn_app_exact a2 (sub ++ b2)), Es, L, firstn_app_exact. reflexivity. }
      apply app_inv_head in Es. apply app_inv_head in Es. subst b2.
      rewrite (IH _ Hb2). reflexivity.
Qed.

Lemma replace_correct s sub new r : sub <> [] -> (replace s sub new = Ok r <-> Replaced sub new s r).
Proof.
  intros Hs. unfold replace. destruct sub as [|x sub']; [congruence|]. set (sub := x :: sub') in *.
  destruct (@replace_loop_spec sub new Hs (length s + 2) s []) as (r' & Hr & E); [lia|].
  cbn [length app] in E. split; intro H.
  - rewrite E in H. injection H as <-. assumption.
  - rewrite E. f_equal. eapply Replaced_det; eassumption.
Qed.

Lemma replace_total s sub new : exists r, replace s sub new = Ok r.
Proof.
  destruct sub as [|x sub']; [exists s; reflexivity|].
  destruct (@replace_loop_spec (x :: sub') new ltac:(congruence) (length s + 2) s []) as (r' & Hr & E); [lia|].
  exists r'. exact E.
Qed.

Lemma replace_empty s new : replace s [] new = Ok s.
Proof. reflexivity. Qed.

(* ------------------------------------------------------------------- trim *)
Lemma trimleft_spec s : exists a, s = a ++ trimleft s /\ (forall c, In c a -> isspace c = true) /\
  (forall c t', trimleft s = c :: t' -> isspace c = false).
Proof.
  induction s as [|c s IH]; cbn.
  - exists []. repeat split; intros; cbn in *; try tauto; discriminate.
  - destruct (isspace c) eqn:E.
    + destruct IH as (a & H1 & H2 & H3). exists (c :: a). repeat split; auto.
      * cbn; congruence.
      * intros d [<-|Hd]; auto.
    + exists []. repeat split; intros; cbn in *; try tauto. congruence.
Qed.

Lemma trimleft_id s : (forall c t', s = c :: t' -> isspace c = false) -> trimleft s = s.
Proof. destruct s as [|c s]; cbn; auto. intros H. rewrite (H c s eq_refl). reflexivity. Qed.

Lemma trimleft_drop a s : (forall c, In c a -> isspace c = true) -> trimleft (a ++ s) = trimleft s.
Proof.
  induction a as [|c a IH]; cbn; auto. intros H. rewrite (H c (or_introl eq_refl)). apply IH. auto.
Qed.

Lemma trim_spec s : Trimmed s (trim s).
Proof.
  unfold trim, trimright.
  destruct (trimleft_spec (rev s)) as (b & Hb1 & Hb2 & Hb3).
  set (u := rev (trimleft (rev s))) in *.
  assert (Hs : s = u ++ rev b).
  { rewrite <- (rev_involutive s), Hb1, rev_app_distr. reflexivity. }
  destruct (trimleft_spec u) as (a & Ha1 & Ha2 & Ha3).
  exists a, (rev b). split; [|split; [|split; [|split]]].
  - rewrite Hs at 1. rewrite Ha1 at 1. rewrite <- app_assoc. reflexivity.
  - assumption.
  - intros c Hc. apply in_rev in Hc. auto.
  - assumption.
  - intros c t' Ht.
    assert (u = (a ++ t') ++ [c]) as Hu by (rewrite Ha1, Ht, app_assoc; reflexivity).
    unfold u in Hu. apply (f_equal (@rev ascii)) in Hu. rewrite rev_involutive, rev_app_distr in Hu.
    cbn in Hu. eapply Hb3. exact Hu.
Qed.

Lemma Trimmed_trim s t : Trimmed s t -> t = trim s.
Proof.
  intros (a & b & -> & Ha & Hb & H1 & H2). unfold trim, trimright.
  rewrite !rev_app_distr, <- app_assoc, trimleft_drop by (intros c Hc; apply Hb, in_rev; assumption).
  destruct t as [|c0 t0] using rev_ind.
  - cbn. rewrite <- (app_nil_r (rev a)), trimleft_drop by (intros c Hc; apply Ha, in_rev; assumption). reflexivity.
  - rewrite rev_app_distr. cbn [rev app trimleft]. rewrite (H2 c0 t0 eq_refl). cbn [rev].
    rewrite rev_app_distr, !rev_involutive, <- app_assoc.
    rewrite trimleft_drop by assumption. symmetry. apply trimleft_id. assumption.
Qed.

Lemma trim_correct s t : trim s = t <-> Trimmed s t.
Proof. split; [intros <-; apply trim_spec | intros H; symmetry; apply Trimmed_trim; assumption]. Qed.

(* ------------------------------------------------------------------ split *)
Lemma mem_char_In c d : mem_char c d = true <-> In c d.
Proof.
  unfold mem_char. rewrite existsb_exists. split.
  - intros (x & Hx & E). apply Ascii.eqb_eq in E. congruence.
  - intros H. exists c. split; auto. apply Ascii.eqb_refl.
Qed.
Lemma mem_char_not_In c d : mem_char c d = false <-> ~ In c d.
Proof. rewrite <- mem_char_In. destruct (mem_char c d); split; congruence. Qed.

Lemma split_aux_word delims w cur rest : none_in delims w ->
  split_aux delims cur (w ++ rest) = split_aux delims (cur ++ w) rest.
Proof.
  revert cur; induction w as [|c w IH]; intros cur H; cbn.
  - rewrite app_nil_r; reflexivity.
  - assert (mem_char c delims = false) as ->. { apply mem_char_not_In. apply H; left; reflexivity. }
    rewrite IH. 2:{ intros d Hd; apply H; right; assumption. } rewrite <- app_assoc. reflexivity.
Qed.

Lemma split_aux_delims delims ds rest : all_in delims ds ->
  split_aux delims [] (ds ++ rest) = split_aux delims [] rest.
Proof.
  induction ds as [|c ds IH]; intros H; cbn; auto.
  assert (mem_char c delims = true) as ->. { apply mem_char_In. apply H; left; reflexivity. }
  cbn. apply IH. intros d Hd; apply H; right; assumption.
Qed.

Lemma Tokens_split delims s ws : Tokens delims s ws -> split s delims = ws.
Proof.
  unfold split. induction 1 as [ds H | ds w rest ws H1 H2 H3 H4 H5 IH].
  - rewrite <- (app_nil_r ds), split_aux_delims by assumption. reflexivity.
  - rewrite split_aux_delims, split_aux_word by assumption. cbn [app].
    destruct rest as [|c rest'].
    + cbn. inversion H5; subst; auto.
      * destruct w; [congruence|]. reflexivity.
      * destruct ds0; [|discriminate]. destruct w0; [congruence|discriminate].
    + cbn. assert (mem_char c delims = true) as Hc. { apply mem_char_In. eapply H4; reflexivity. }
      rewrite Hc. cbn in IH. rewrite Hc in IH. cbn in IH.
      destruct w; [congruence|]. cbn. f_equal. assumption.
Qed.

Lemma split_aux_Tokens delims : forall s cur, none_in delims cur ->
  Tokens delims (cur ++ s) (split_aux delims cur s).
Proof.
  induction s as [|c s IH]; intros cur Hc; cbn.
  - rewrite app_nil_r. destruct cur as [|x cur]; cbn.
    + apply Tokens_nil. intros ? [].
    + rewrite <- (app_nil_r (x :: cur)) at 1. apply (@Tokens_cons delims [] (x :: cur) [] []); auto.
      * intros ? [].
      * discriminate.
      * discriminate.
      * apply Tokens_nil. intros ? [].
  - destruct (mem_char c delims) eqn:E.
    + apply mem_char_In in E. specialize (IH [] ltac:(intros ? [])). cbn in IH.
      assert (Tokens delims (c :: s) (split_aux delims [] s)) as T.
      { inversion IH as [ds Hds | ds w rest ws A B C D F]; subst.
        - apply Tokens_nil. intros d [<-|Hd]; auto.
        - change (c :: ds ++ w ++ rest) with ((c :: ds) ++ w ++ rest).
          apply Tokens_cons; auto. intros d [<-|Hd]; auto. }
      destruct cur as [|x cur]; cbn; [exact T|].
      apply (@Tokens_cons delims [] (x :: cur) (c :: s)); auto.
      * intros ? [].
      * discriminate.
      * intros d r [= <- _]; assumption.
    + specialize (IH (cur ++ [c])). rewrite <- app_assoc in IH. apply IH.
      intros d Hd. apply in_app_iff in Hd as [Hd|[<-|[]]]; auto. apply mem_char_not_In; assumption.
Qed.

Lemma split_correct s delims ws : split s delims = ws <-> Tokens delims s ws.
Proof.
  split; [intros <- | apply Tokens_split]. apply (@split_aux_Tokens delims s []). intros ? [].
Qed.

Lemma join_aux_spec ws sep : forall i res, join_aux (S i) ws sep res = res ++ concat (map (app sep) ws).
Proof.
  induction ws as [|w ws IH]; intros i res; cbn.
  - rewrite app_nil_r; reflexivity.
  - cbn in IH. rewrite IH, <- !app_assoc. reflexivity.
Qed.

Lemma join_cons w ws sep : join (w :: ws) sep = w ++ concat (map (app sep) ws).
Proof. unfold join. cbn [join_aux Nat.eqb app]. rewrite join_aux_spec. reflexivity. Qed.

Lemma join_correct ws sep : join ws sep = intersperse sep ws.
Proof.
  destruct ws as [|w ws]; [reflexivity|]. rewrite join_cons. revert w.
  induction ws as [|v ws IH]; intros w; cbn; [rewrite app_nil_r; reflexivity|].
  rewrite <- app_assoc. do 2 f_equal. apply IH.
Qed.

Lemma split_join ws sep delims : sep <> [] -> all_in delims sep ->
  Forall (fun w => w <> [] /\ none_in delims w) ws -> split (join ws sep) delims = ws.
Proof.
  intros Hs Ha H. apply split_correct. rewrite join_correct.
  induction H as [|w ws [H1 H2] Hws IH].
  - apply Tokens_nil. intros ? [].
  - destruct ws as [|v ws].
    + cbn. rewrite <- (app_nil_r w) at 1. apply (@Tokens_cons delims [] w [] []); auto; try discriminate.
      all: try (apply Tokens_nil); intros ? [].  
    + change (intersperse sep (w :: v :: ws)) with ([] ++ w ++ (sep ++ intersperse sep (v :: ws))).
      apply Tokens_cons; auto.
      * intros ? [].
      * intros c r E. destruct sep as [|x sep]; [congruence|]. cbn in E. injection E as <- _. apply Ha; left; reflexivity.
      * remember (intersperse sep (v :: ws)) as t eqn:Et. remember (v :: ws) as vw eqn:Ev.
        destruct IH as [ds Hds | ds w' rest ws' A B C D F]; [discriminate|].
        rewrite app_assoc. apply Tokens_cons; auto. intros c Hc. apply in_app_iff in Hc as [Hc|Hc]; auto.
Qed.

(* ------------------------------------------------------------- makeunique *)
Lemma copies_app k j s : copies (k + j) s = copies k s ++ copies j s.
Proof.
  induction j as [|j IH]; cbn.
  - rewrite Nat.add_0_r, app_nil_r; reflexivity.
  - rewrite Nat.add_succ_r. cbn. rewrite IH, app_assoc. reflexivity.
Qed.

Lemma uniqueword_app suffix a b w : uniqueword suffix (a ++ b) w = uniqueword suffix b (uniqueword suffix a w).
Proof. unfold uniqueword. apply fold_left_app. Qed.

Lemma uniqueword_copies suffix seen : forall w, exists k, k <= length seen /\ uniqueword suffix seen w = w ++ copies k suffix.
Proof.
  induction seen as [|x seen IH]; intros w; cbn.
  - exists 0. rewrite app_nil_r. auto.
  - destruct (str_eqb w x).
    + destruct (IH (w ++ suffix)) as (k & Hk & E). exists (1 + k). split; [lia|].
      rewrite copies_app. cbn. change (uniqueword suffix seen (w ++ suffix) = w ++ suffix ++ copies k suffix).
      rewrite E, <- app_assoc. reflexivity.
    + destruct (IH w) as (k & Hk & E). exists k. split; [lia|assumption].
Qed.

Definition mu_step (suffix : str) := fun seen word => seen ++ [uniqueword suffix seen word].

Lemma makeunique_snoc ws w suffix :
  makeunique (ws ++ [w]) suffix = makeunique ws suffix ++ [uniqueword suffix (makeunique ws suffix) w].
Proof. unfold makeunique. rewrite fold_left_app. reflexivity. Qed.

Lemma makeunique_length ws suffix : length (makeunique ws suffix) = length ws.
Proof.
  induction ws as [|w ws IH] using rev_ind; auto.
  rewrite makeunique_snoc, !app_length, IH. reflexivity.
Qed.

Lemma makeunique_copies ws suffix :
  Forall2 (fun w u => exists k, u = w ++ copies k suffix) ws (makeunique ws suffix).
Proof.
  induction ws as [|w ws IH] using rev_ind; [constructor|].
  rewrite makeunique_snoc. apply Forall2_app; auto. constructor; [|constructor].
  destruct (uniqueword_copies suffix (makeunique ws suffix) w) as (k & _ & E). exists k. assumption.
Qed.

Lemma uniqueword_not_in suffix seen w : ~ In w seen -> uniqueword suffix seen w = w.
Proof.
  induction seen as [|x seen IH]; cbn; auto. intros H.
  destruct (str_eqb_spec w x) as [->|Hn]; [tauto|]. apply IH. tauto.
Qed.

Lemma makeunique_distinct ws suffix : NoDup ws -> makeunique ws suffix = ws.
Proof.
  induction ws as [|w ws IH] using rev_ind; auto. intros H.
  rewrite makeunique_snoc. apply NoDup_remove in H as [H1 H2]. rewrite app_nil_r in *.
  rewrite IH by assumption. rewrite uniqueword_not_in by assumption. reflexivity.
Qed.

Lemma app_copies_inj u v j k suffix : u ++ copies j suffix = v ++ copies k suffix ->
  u = v /\ (copies j suffix = copies k suffix) \/ (exists i, u = v ++ copies (S i) suffix) \/ (exists i, v = u ++ copies (S i) suffix).
Proof.
  destruct (lt_eq_lt_dec j k) as [[h|h]|h]; intros H.
  - right; left. exists (k - j - 1). replace k with (S (k - j - 1) + j) in H by lia.
    rewrite copies_app, app_assoc in H. apply app_inv_tail in H. assumption.
  - left. subst k. apply app_inv_tail in H. auto.
  - right; right. exists (j - k - 1). replace j with (S (j - k - 1) + k) in H by lia.
    rewrite copies_app, app_assoc in H. apply app_inv_tail in H. auto.
Qed.

Lemma copies_length k s : length (copies k s) = k * length s.
Proof. induction k; cbn; auto. rewrite app_length, IHk. lia. Qed.

Lemma copies_inj j k s : s <> [] -> copies j s = copies k s -> j = k.
Proof.
  intros Hs H. apply (f_equal (@length ascii)) in H. rewrite !copies_length in H.
  destruct s; [congruence|]. cbn in H. apply Nat.mul_cancel_r in H; auto.
Qed.

Lemma numbered_snoc suffix ws : forall seen w,
  numbered seen (ws ++ [w]) suffix = numbered seen ws suffix ++ [w ++ copies (occ w (seen ++ ws)) suffix].
Proof.
  induction ws as [|v ws IH]; intros seen w; cbn.
  - rewrite app_nil_r; reflexivity.
  - rewrite IH, <- app_assoc. reflexivity.
Qed.

Lemma occ_snoc w l v : occ w (l ++ [v]) = occ w l + (if str_eq_dec v w then 1 else 0).
Proof. unfold occ. rewrite count_occ_app. cbn. destruct (str_eq_dec v w); lia. Qed.

Lemma uniqueword_numbered suffix (ws : list str) w : suffix <> [] -> suffix_free suffix (w :: ws) ->
  uniqueword suffix (numbered [] ws suffix) w = w ++ copies (occ w ws) suffix.
Proof.
  intros Hs. induction ws as [|v ws IH] using rev_ind; intros Hf.
  - cbn. rewrite app_nil_r; reflexivity.
  - rewrite numbered_snoc, uniqueword_app, IH.
    2:{ intros a b k Ha Hb. apply Hf; [destruct Ha as [<-|Ha]|destruct Hb as [<-|Hb]]; try (left; reflexivity); right; apply in_app_iff; auto. }
    cbn [app]. unfold uniqueword. cbn [fold_left]. rewrite occ_snoc.
    destruct (str_eqb_spec (w ++ copies (occ w ws) suffix) (v ++ copies (occ v ws) suffix)) as [E|E].
    + apply app_copies_inj in E as [[E1 E2]|[[i E]|[i E]]].
      * subst v. destruct (str_eq_dec w w); [|congruence]. rewrite <- app_assoc. f_equal.
        rewrite Nat.add_1_r. reflexivity.
      * exfalso. eapply (Hf w v i); [left; auto| right; apply in_app_iff; right; left; auto |assumption].
      * exfalso. eapply (Hf v w i); [right; apply in_app_iff; right; left; auto|left; auto|assumption].
    + destruct (str_eq_dec v w) as [->|]; [congruence|]. rewrite Nat.add_0_r. reflexivity.
Qed.

Lemma makeunique_numbered suffix ws : suffix <> [] -> suffix_free suffix ws ->
  makeunique ws suffix = numbered [] ws suffix.
Proof.
  intros Hs. induction ws as [|w ws IH] using rev_ind; auto. intros Hf.
  assert (suffix_free suffix ws) as Hf'.
  { intros a b k Ha Hb. apply Hf; apply in_app_iff; auto. }
  rewrite makeunique_snoc, IH, numbered_snoc, uniqueword_numbered; auto.
  intros a b k Ha Hb. apply Hf; apply in_app_iff; cbn in *; tauto.
Qed.

Lemma numbered_In suffix ws : forall u, In u (numbered [] ws suffix) -> exists w k, In w ws /\ k < occ w ws /\ u = w ++ copies k suffix.
Proof.
  induction ws as [|w ws IH] using rev_ind; cbn [numbered]; [intros ? []|].
  intros u. rewrite numbered_snoc. intros H. apply in_app_iff in H as [H|[<-|[]]].
  - destruct (IH u H) as (w' & k & Hw & Hk & ->). exists w', k. repeat split; auto.
    + apply in_app_iff; auto. + rewrite occ_snoc. lia.
  - exists w, (occ w ws). repeat split; auto.
    + apply in_app_iff; right; left; auto.
    + rewrite occ_snoc. destruct (str_eq_dec w w); [lia|congruence].
Qed.

Lemma numbered_NoDup suffix ws : suffix <> [] -> suffix_free suffix ws -> NoDup (numbered [] ws suffix).
Proof.
  intros Hs. induction ws as [|w ws IH] using rev_ind; [constructor|]. intros Hf.
  rewrite numbered_snoc. cbn [app].
  assert (suffix_free suffix ws) as Hf'.
  { intros a b k Ha Hb. apply Hf; apply in_app_iff; auto. }
  specialize (IH Hf').
  rewrite <- (rev_involutive (_ ++ [_])). apply NoDup_rev. rewrite rev_app_distr. cbn [rev app].
  constructor; [|apply NoDup_rev; assumption].
  intros H. apply in_rev in H. rewrite ?rev_involutive in H. apply numbered_In in H as (v & k & Hv & Hk & E).
  apply app_copies_inj in E as [[E1 E2]|[[i E]|[i E]]].
  - subst v. apply copies_inj in E2; auto. lia.
  - eapply (Hf w v i); [apply in_app_iff; right; left; auto | apply in_app_iff; auto | assumption].
  - eapply (Hf v w i); [apply in_app_iff; auto | apply in_app_iff; right; left; auto | assumption].
Qed.

(* ------------------------------------------------------------- StringList *)
Lemma match_bracket_app level s : fst (match_bracket level s) ++ snd (match_bracket level s) = s.
Proof.
  revert level; induction s as [|c s IH]; intros level; cbn [match_bracket]; auto.
  destruct (Ascii.eqb c rpar && _); auto.
  match goal with |- context[match_bracket ?l s] => specialize (IH l); destruct (match_bracket l s) end. cbn in *. congruence.
Qed.

Lemma match_bracket_words token : token <> "("%char -> token <> ")"%char ->
  forall s d cur,
  bracket_words token (S d) cur s =
  bracket_words token 0 (cur ++ fst (match_bracket (Z.of_nat d) s)) (snd (match_bracket (Z.of_nat d) s)).
Proof.
  intros Hl Hr. induction s as [|c s IH]; intros d cur; cbn [match_bracket bracket_words].
  - cbn. rewrite app_nil_r. reflexivity.
  - unfold rpar, lpar. destruct (Ascii.eqb_spec c ")"%char) as [->|Hc].
    + cbn [Ascii.eqb Bool.eqb andb]. destruct (Z.eqb_spec (Z.of_nat d - 1) (-1)) as [E|E].
      * assert (d = 0) by lia. subst d. cbn [fst snd]. cbn [bracket_words].
        destruct (Ascii.eqb_spec ")"%char token); [congruence|]. rewrite app_nil_r. cbn. reflexivity.
      * destruct d as [|d]; [lia|]. replace (Z.of_nat (S d) - 1)%Z with (Z.of_nat d) by lia.
        specialize (IH d (cur ++ [")"%char])). destruct (match_bracket (Z.of_nat d) s) as [a b]. cbn [fst snd] in *.
        change (Ascii.eqb ")"%char "("%char) with false. cbn iota. rewrite IH, <- app_assoc. reflexivity.
    + cbn [andb]. destruct (Ascii.eqb_spec c "("%char) as [->|Hc2].
      * replace (Z.of_nat d + 1)%Z with (Z.of_nat (S d)) by lia.
        specialize (IH (S d) (cur ++ ["("%char])). destruct (match_bracket (Z.of_nat (S d)) s) as [a b]. cbn [fst snd] in *.
        rewrite IH, <- app_assoc. reflexivity.
      * specialize (IH d (cur ++ [c])). destruct (match_bracket (Z.of_nat d) s) as [a b]. cbn [fst snd] in *.
        rewrite IH, <- app_assoc. reflexivity.
Qed.

Lemma strings_helper_spec token : token <> "("%char -> token <> ")"%char ->
  forall fuel s cur, length s < fuel -> strings_helper fuel token cur s = Ok (bracket_words token 0 cur s).
Proof.
  intros Hl Hr. induction fuel as [|fuel IH]; intros s cur Hf; [lia|].
  destruct s as [|c s]; cbn [strings_helper]; auto. cbn [length] in Hf.
  cbn [bracket_words]. destruct (Ascii.eqb c token) eqn:E.
  - rewrite IH by lia. reflexivity.
  - unfold lpar. destruct (Ascii.eqb c "("%char) eqn:E2; cbn [negb].
    + pose proof (@match_bracket_app 0 s) as Hs.
      pose proof (@match_bracket_words token Hl Hr s 0 (cur ++ [c])) as Hm. cbn [Z.of_nat] in Hm.
      destruct (match_bracket 0 s) as [a b]. cbn [fst snd] in *.
      rewrite IH. 2:{ apply (f_equal (@length ascii)) in Hs. rewrite app_length in Hs. lia. }
      rewrite Hm, <- app_assoc. reflexivity.
    + apply IH. lia.
Qed.

Lemma strings_helper_total token : forall fuel s cur, length s < fuel ->
  exists ws, strings_helper fuel token cur s = Ok ws /\ ws <> [] /\ intersperse [token] ws = cur ++ s.
Proof.
  induction fuel as [|fuel IH]; intros s cur Hf; [lia|].
  destruct s as [|c s]; cbn [strings_helper].
  - exists [cur]. repeat split; [discriminate|]. cbn. rewrite app_nil_r; reflexivity.
  - cbn [length] in Hf. destruct (Ascii.eqb_spec c token) as [->|E].
    + destruct (IH s [] ltac:(lia)) as (ws & -> & Hn & Hi). exists (cur :: ws). repeat split; [discriminate|].
      destruct ws as [|w0 ws0]; [congruence|].
      change (cur ++ [token] ++ intersperse [token] (w0 :: ws0) = cur ++ token :: s). rewrite Hi. reflexivity.
    + destruct (negb (Ascii.eqb c lpar)).
      * destruct (IH s (cur ++ [c]) ltac:(lia)) as (ws & -> & Hn & Hi). exists ws. repeat split; auto. rewrite Hi, <- app_assoc. reflexivity.
      * pose proof (@match_bracket_app 0 s) as Hs. destruct (match_bracket 0 s) as [a b]. cbn [fst snd] in *.
        destruct (IH b (cur ++ c :: a)) as (ws & -> & Hn & Hi).
        { apply (f_equal (@length ascii)) in Hs. rewrite app_length in Hs. lia. }
        exists ws. repeat split; auto. rewrite Hi, <- app_assoc. cbn. rewrite Hs. reflexivity.
Qed.

Lemma StringList_words s token : token <> "("%char -> token <> ")"%char -> trim s <> [] ->
  StringList s token = Ok (bracket_words token 0 [] (trim s)).
Proof.
  intros Hl Hr Ht. unfold StringList, convertStringToStrings. destruct (trim s) as [|c t]; [congruence|].
  apply strings_helper_spec; auto.
Qed.

Lemma StringList_lossless s token : exists ws, StringList s token = Ok ws /\ intersperse [token] ws = trim s /\
  (ws = [] <-> trim s = []).
Proof.
  unfold StringList, convertStringToStrings. destruct (trim s) as [|c t] eqn:E.
  - exists []. repeat split; auto.
  - destruct (@strings_helper_total token (S (length (c :: t))) (c :: t) []) as (ws & H1 & H2 & H3); [lia|].
    exists ws. repeat split; auto; intros; congruence.
Qed.

Lemma makeunique_partial words suffix :
  length (makeunique words suffix) = length words /\
  Forall2 (fun w u => exists k, u = w ++ copies k suffix) words (makeunique words suffix) /\
  (NoDup words -> makeunique words suffix = words) /\
  (suffix <> [] -> suffix_free suffix words ->
     makeunique words suffix = numbered [] words suffix /\ NoDup (makeunique words suffix)).
Proof.
  split; [apply makeunique_length|]. split; [apply makeunique_copies|].
  split; [intros; apply makeunique_distinct; assumption|].
  intros Hs Hf. split; [apply makeunique_numbered; assumption|].
  rewrite makeunique_numbered by assumption. apply numbered_NoDup; assumption.
Qed.

Lemma last_copies v k suffix d : suffix <> [] -> last (v ++ copies (S k) suffix) d = last suffix d.
Proof.
  intros H. cbn [copies]. rewrite app_assoc. destruct suffix as [|c s _] using rev_ind; [congruence|].
  rewrite app_assoc, !last_last. reflexivity.
Qed.

Lemma StringList_lossless_trimmed s token : exists ws t,
  StringList s token = Ok ws /\ Trimmed s t /\ intersperse [token] ws = t /\ (ws = [] <-> t = []).
Proof.
  destruct (StringList_lossless s token) as (ws & H1 & H2 & H3).
  exists ws, (trim s). repeat split; try tauto. apply trim_spec.
Qed.
