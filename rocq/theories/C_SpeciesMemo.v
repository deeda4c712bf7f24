(* C84: the properties of a species follow the parameters they depend on. *)
From Verif Require Import Base M_SpeciesMemo.

Section Fresh.
Variables V A X : Type.
Variable veqb : V -> V -> bool.
Variable aeqb : A -> A -> bool.
Variable v0 : V.
Hypothesis veqb_eq : forall x y, veqb x y = true <-> x = y.
Hypothesis aeqb_eq : forall x y, aeqb x y = true <-> x = y.
Notation kind := (kind V A X).

(* The value of species i by its definition, from the current parameter values;
   [fresh kinds cells i a x] has no memory of earlier calls. *)
Inductive fresh (kinds : list kind) (cells : list V) : nat -> A -> X -> Prop :=
| fresh_direct : forall i a ps f, nth_error kinds i = Some (Direct ps f) ->
    fresh kinds cells i a (f a (values_of v0 cells ps))
| fresh_reaction : forall i a rs ps f xs, nth_error kinds i = Some (ByReaction rs ps f) ->
    fresh_all kinds cells rs a xs -> fresh kinds cells i a (f a xs (values_of v0 cells ps))
with fresh_all (kinds : list kind) (cells : list V) : list nat -> A -> list X -> Prop :=
| fresh_nil : forall a, fresh_all kinds cells [] a []
| fresh_cons : forall r rs a x xs, fresh kinds cells r a x -> fresh_all kinds cells rs a xs -> fresh_all kinds cells (r :: rs) a (x :: xs).
Scheme fresh_ind2 := Induction for fresh Sort Prop
with fresh_all_ind2 := Induction for fresh_all Sort Prop.
Combined Scheme fresh_mut from fresh_ind2, fresh_all_ind2.

(* Reactants are earlier species. *)
Definition ordered (kinds : list kind) : Prop :=
  forall i rs ps f r, nth_error kinds i = Some (ByReaction rs ps f) -> In r rs -> r < i.

(* Every property asked for is the fresh one. *)
Definition follows (kinds : list kind) (cells : list V) (es : list (event V A)) : Prop :=
  forall w i a, history veqb aeqb v0 kinds (start kinds cells) es = Ok w -> i < length kinds ->
  exists x w', happen veqb aeqb v0 kinds w (Ask V i a) = Ok (Some x, w') /\ fresh kinds (w_cells w) i a x.
Definition C84_statement : Prop := forall kinds cells es, ordered kinds -> follows kinds cells es.

(* Parameters changed in a history. *)
Definition changed (es : list (event V A)) (p : nat) : bool :=
  existsb (fun e => match e with SetParam _ q _ => Nat.eqb p q | _ => false end) es.
(* Whatever changes among the parameters of a reactant is among the parameters of
   the reaction too. *)
Definition covered (kinds : list kind) (C : nat -> bool) : Prop :=
  forall i rs ps f r k p, nth_error kinds i = Some (ByReaction rs ps f) -> In r rs -> nth_error kinds r = Some k ->
  In p (own_params k) -> C p = true -> In p ps.

Section Proof.
Variable kinds : list kind.
Variable C : nat -> bool.
Variable c0 : list V.
Hypothesis Hord : ordered kinds.
Hypothesis Hcov : covered kinds C.
Definition agree (cells : list V) : Prop := forall p, C p = false -> nth p cells v0 = nth p c0 v0.

Lemma list_eqb_eq : forall l m, list_eqb veqb l m = true <-> l = m.
Proof.
  induction l as [|x l IH]; intros [|y m]; simpl; split; intros H; try discriminate; auto.
  - apply andb_true_iff in H as [H1 H2]. apply veqb_eq in H1. apply IH in H2. congruence.
  - injection H as -> ->. apply andb_true_iff. split; [apply veqb_eq; auto|apply IH; auto].
Qed.

Lemma values_same : forall cells cells' ps, values_of v0 cells ps = values_of v0 cells' ps -> forall p, In p ps -> nth p cells v0 = nth p cells' v0.
Proof.
  intros cells cells' ps. induction ps as [|q ps IH]; intros E p I; [destruct I|]. simpl in E. injection E as E1 E2.
  destruct I as [->|I]; auto.
Qed.
Lemma same_values_of : forall cells cells' ps, (forall p, In p ps -> nth p cells v0 = nth p cells' v0) -> values_of v0 cells ps = values_of v0 cells' ps.
Proof. intros. apply map_ext_in. auto. Qed.

Lemma fresh_depends : forall cells, agree cells -> forall cells', agree cells' ->
  (forall i a x, fresh kinds cells i a x -> forall k, nth_error kinds i = Some k ->
     values_of v0 cells (own_params k) = values_of v0 cells' (own_params k) -> fresh kinds cells' i a x) /\
  (forall rs a xs, fresh_all kinds cells rs a xs -> (forall r k, In r rs -> nth_error kinds r = Some k ->
     values_of v0 cells (own_params k) = values_of v0 cells' (own_params k)) -> fresh_all kinds cells' rs a xs).
Proof.
  intros cells Ha cells' Ha'.
  apply (fresh_mut kinds cells
    (fun i a x _ => forall k, nth_error kinds i = Some k ->
     values_of v0 cells (own_params k) = values_of v0 cells' (own_params k) -> fresh kinds cells' i a x)
    (fun rs a xs _ => (forall r k, In r rs -> nth_error kinds r = Some k ->
     values_of v0 cells (own_params k) = values_of v0 cells' (own_params k)) -> fresh_all kinds cells' rs a xs)).
  - intros i a ps f E k Ek Ev. assert (k = Direct ps f) by congruence. subst k. cbn [own_params] in Ev. rewrite Ev. constructor; auto.
  - intros i a rs ps f xs E Fx IH k Ek Ev. assert (k = ByReaction rs ps f) by congruence. subst k. cbn [own_params] in Ev. rewrite Ev.
    apply fresh_reaction with (rs := rs); auto. apply IH. intros r k Ir Er. apply same_values_of. intros p Ip.
    destruct (C p) eqn:EC.
    + apply (values_same _ _ _ Ev). eapply Hcov; eauto.
    + rewrite Ha, Ha'; auto.
  - intros. constructor.
  - intros r rs a x xs Fx IH1 Fxs IH2 H. constructor.
    + destruct (nth_error kinds r) as [k|] eqn:E; [|inversion Fx; congruence].
      apply (IH1 k eq_refl). apply (H r); [left; auto|auto].
    + apply IH2. intros; apply (H r0); [right; auto|auto].
Qed.

(* What is remembered is right for the parameter values it was computed from. *)
Definition sound (ms : list (memo V A X)) : Prop :=
  forall i a vs x k cells, nth i ms None = Some (a, vs, x) -> nth_error kinds i = Some k -> agree cells ->
  values_of v0 cells (own_params k) = vs -> fresh kinds cells i a x.

Lemma nth_set_nth : forall {B} (l : list B) i j x d, nth j (set_nth l i x) d = nth j l d \/ (j = i /\ nth j (set_nth l i x) d = x).
Proof.
  intros B l. induction l as [|y l IH]; intros [|i] [|j] x d; simpl; auto.
  destruct (IH i j x d) as [->|[-> E]]; auto.
Qed.

Lemma sound_set : forall ms cells i a x k, sound ms -> agree cells -> nth_error kinds i = Some k -> fresh kinds cells i a x ->
  sound (set_nth ms i (Some (a, values_of v0 cells (own_params k), x))).
Proof.
  intros ms cells i a x k Hs Ha Ek Fx j a' vs x' k' cells' En Ek' Ha' Ev.
  destruct (nth_set_nth ms i j (Some (a, values_of v0 cells (own_params k), x)) None) as [E|[-> E]]; rewrite E in En.
  - eapply Hs; eauto.
  - injection En as <- <- <-. assert (k' = k) by congruence. subst k'.
    destruct (fresh_depends cells Ha cells' Ha') as [D _]. apply (D i a x Fx k Ek). congruence.
Qed.

Lemma eval_fresh : forall on cells, agree cells -> forall n i a ms, i < n -> i < length kinds -> sound ms ->
  exists x ms', eval veqb aeqb v0 kinds on cells n ms i a = Ok (x, ms') /\ fresh kinds cells i a x /\ sound ms'.
Proof.
  intros on cells Ha. induction n as [|n IH]; intros i a ms Hi Hl Hs; [lia|]. cbn [eval].
  destruct (nth_error kinds i) as [k|] eqn:Ek; [|apply nth_error_None in Ek; lia].
  match goal with |- context [match ?h with Some x => Ok (x, ms) | None => _ end] => set (hit := h) end.
  assert (Hhit : forall x, hit = Some x -> fresh kinds cells i a x).
  { intros x E. unfold hit in E. destruct on; [|discriminate]. destruct (nth i ms None) as [[[a' vs'] x']|] eqn:En; [|discriminate].
    destruct (aeqb a' a && list_eqb veqb vs' _) eqn:Eb; [|discriminate]. injection E as ->.
    apply andb_true_iff in Eb as [E1 E2]. apply aeqb_eq in E1. apply list_eqb_eq in E2. subst a'. eapply Hs; eauto. }
  destruct hit as [x|]; [exists x, ms; auto|]. clear Hhit.
  assert (G : exists x ms', (match k with
              | Direct _ f => Ok (f a (values_of v0 cells (own_params k)), ms)
              | ByReaction rs _ f => bind (eval_all (eval veqb aeqb v0 kinds on cells n) ms rs a) (fun '(xs, ms') => Ok (f a xs (values_of v0 cells (own_params k)), ms'))
              end) = Ok (x, ms') /\ fresh kinds cells i a x /\ sound ms').
  { destruct k as [ps f|rs ps f].
    - do 2 eexists. split; [reflexivity|]. split; auto. apply fresh_direct; auto.
    - assert (G : forall l ms, (forall r, In r l -> r < i) -> sound ms -> exists xs ms', eval_all (eval veqb aeqb v0 kinds on cells n) ms l a = Ok (xs, ms') /\ fresh_all kinds cells l a xs /\ sound ms').
      { clear Hs. clear ms. induction l as [|r l IHl]; intros ms Hr Hs.
        - exists [], ms. split; [reflexivity|]. split; auto. constructor.
        - assert (Hri : r < i) by (apply Hr; left; auto).
          destruct (IH r a ms) as (x & ms1 & E1 & F1 & S1); auto; try lia.
          destruct (IHl ms1) as (xs & ms2 & E2 & F2 & S2); auto. { intros; apply Hr; right; auto. }
          exists (x :: xs), ms2. split; [cbn [eval_all]; rewrite E1; cbn [bind]; rewrite E2; reflexivity|]. split; auto. constructor; auto. }
      destruct (G rs ms) as (xs & ms1 & E1 & F1 & S1); auto. { intros r Ir. eapply Hord; eauto. }
      rewrite E1. cbn [bind]. do 2 eexists. split; [reflexivity|]. split; auto. eapply fresh_reaction; eauto. }
  destruct G as (x & ms' & E & F & S). rewrite E. cbn [bind]. do 2 eexists. split; [reflexivity|]. split; auto.
  destruct on; auto. apply sound_set; auto.
Qed.

Lemma happen_sound : forall w e o w', happen veqb aeqb v0 kinds w e = Ok (o, w') -> sound (w_memos w) -> agree (w_cells w) ->
  (forall p v, e = SetParam A p v -> C p = true) -> sound (w_memos w') /\ agree (w_cells w').
Proof.
  intros w [p v|b|i a] o w' E Hs Ha Hc; cbn [happen] in E.
  - injection E as <- <-. split; auto. intros q Hq. cbn [w_cells].
    destruct (nth_set_nth (w_cells w) p q v v0) as [->|[-> _]]; [auto|]. rewrite (Hc p v eq_refl) in Hq. discriminate.
  - injection E as <- <-. split; auto.
  - assert (Hi : i < length kinds).
    { destruct (Nat.lt_ge_cases i (length kinds)) as [L|L]; auto. exfalso. apply nth_error_None in L.
      destruct (length kinds); cbn [eval] in E; [discriminate|]. rewrite L in E. discriminate. }
    destruct (eval_fresh (w_on w) (w_cells w) Ha (length kinds) i a (w_memos w) Hi Hi Hs) as (x & ms & Ex & _ & S).
    rewrite Ex in E. cbn [bind] in E. injection E as <- <-. split; auto.
Qed.

Lemma history_sound : forall es w w', history veqb aeqb v0 kinds w es = Ok w' -> sound (w_memos w) -> agree (w_cells w) ->
  (forall p v, In (SetParam A p v) es -> C p = true) -> sound (w_memos w') /\ agree (w_cells w').
Proof.
  induction es as [|e es IH]; intros w w' E Hs Ha Hc; cbn [history] in E; [injection E as <-; auto|].
  destruct (happen veqb aeqb v0 kinds w e) as [[o w1]| |] eqn:E1; try discriminate. cbn [bind] in E.
  destruct (happen_sound w e o w1 E1 Hs Ha) as [S1 A1]. { intros p v ->. apply (Hc p v). left; auto. }
  apply (IH w1); auto. intros; apply (Hc p v); right; auto.
Qed.
End Proof.

(* Properties are fresh when a reaction's own parameters cover what changes of its
   reactants; in particular for species that are not defined by reactions, and when
   no parameter of a reactant changes. *)
Theorem C84_partial : forall kinds cells es, ordered kinds -> covered kinds (changed es) -> follows kinds cells es.
Proof.
  intros kinds cells es Ho Hc w i a Ew Hi.
  assert (Hch : forall p v, In (SetParam A p v) es -> changed es p = true).
  { intros p v I. unfold changed. apply existsb_exists. exists (SetParam A p v). split; auto. apply Nat.eqb_refl. }
  destruct (history_sound kinds (changed es) cells Ho Hc es (start kinds cells) w Ew) as [S Ag]; auto.
  { intros j b vs x k cells' En. cbn [start w_memos] in En. exfalso. destruct (Nat.lt_ge_cases j (length kinds)) as [L|L].
    - rewrite nth_repeat in En. discriminate.
    - rewrite nth_overflow in En by (rewrite repeat_length; auto). discriminate. }
  { intros p Hp. reflexivity. }
  destruct (eval_fresh kinds (changed es) cells Ho Hc (w_on w) (w_cells w) Ag (length kinds) i a (w_memos w) Hi Hi S) as (x & ms & Ex & Fx & _).
  exists x. eexists. cbn [happen]. rewrite Ex. cbn [bind]. split; [reflexivity|auto].
Qed.

(* With memoization switched off they are always fresh. *)
Theorem C84_switched_off : forall kinds w i a, ordered kinds -> w_on w = false -> i < length kinds ->
  exists x w', happen veqb aeqb v0 kinds w (Ask V i a) = Ok (Some x, w') /\ fresh kinds (w_cells w) i a x.
Proof.
  intros kinds w i a Ho Hoff Hi. cbn [happen]. rewrite Hoff.
  assert (G : forall n i ms, i < n -> i < length kinds -> exists x, eval veqb aeqb v0 kinds false (w_cells w) n ms i a = Ok (x, ms) /\ fresh kinds (w_cells w) i a x).
  { induction n as [|n IH]; intros j ms Hj Hl; [lia|]. cbn [eval].
    destruct (nth_error kinds j) as [k|] eqn:Ek; [|apply nth_error_None in Ek; lia].
    destruct k as [ps f|rs ps f].
    - eexists. split; [reflexivity|]. apply fresh_direct; auto.
    - assert (G : forall l, (forall r, In r l -> r < j) -> exists xs, eval_all (eval veqb aeqb v0 kinds false (w_cells w) n) ms l a = Ok (xs, ms) /\ fresh_all kinds (w_cells w) l a xs).
      { induction l as [|r l IHl]; intros Hr; [exists []; split; [reflexivity|constructor]|].
        assert (r < j) by (apply Hr; left; auto).
        destruct (IH r ms) as (x & E1 & F1); try lia. destruct IHl as (xs & E2 & F2). { intros; apply Hr; right; auto. }
        exists (x :: xs). cbn [eval_all]. rewrite E1. cbn [bind]. rewrite E2. split; [reflexivity|constructor; auto]. }
      destruct (G rs) as (xs & E & F). { intros; eapply Ho; eauto. }
      rewrite E. cbn [bind]. eexists. split; [reflexivity|]. eapply fresh_reaction; eauto. }
  destruct (G (length kinds) i (w_memos w) Hi Hi) as (x & E & F). rewrite E. cbn [bind]. do 2 eexists. split; [reflexivity|auto].
Qed.
End Fresh.
Print Assumptions C84_partial.
Print Assumptions C84_switched_off.

(* A product whose single reactant has the parameter 0. *)
Definition pair_of_species : list (kind nat nat nat) :=
  [Direct [0] (fun a vs => a + hd 0 vs); ByReaction [0] [] (fun a xs vs => hd 0 xs)].

Theorem C84_refuted : ~ C84_statement nat nat nat Nat.eqb Nat.eqb 0.
Proof.
  intros H.
  assert (Ho : ordered nat nat nat pair_of_species).
  { intros [|[|[|i]]] rs ps f r E I; cbn in E; try discriminate. injection E as <- _ _. destruct I as [<-|[]]. lia. }
  specialize (H pair_of_species [5] [Ask nat 1 7; SetParam nat 0 50] Ho).
  destruct (H (mkWorld [50] [Some (7, [5], 12); Some (7, [], 12)] true) 1 7 eq_refl) as (x & w' & E & F); [cbn; lia|].
  vm_compute in E. injection E as <- _. cbn [w_cells] in F.
  assert (G : forall x, fresh nat nat nat 0 pair_of_species [50] 1 7 x -> x = 57).
  { clear. intros x F. inversion F as [i a ps f E1|i a rs ps f xs E1 Fx]; subst; cbn in E1; try discriminate.
    injection E1 as <- <- <-. inversion Fx as [|r rs' a' x' xs' Fr Fxs]; subst.
    inversion Fr as [i a ps f E1|i a rs ps f ys E1 Fy]; subst; cbn in E1; try discriminate. injection E1 as <- <-. reflexivity. }
  apply G in F. discriminate.
Qed.
Print Assumptions C84_refuted.

(* The reactant itself follows, and so does the product once its reaction lists
   the parameter. *)
Example C84_nonvacuous : covered nat nat nat [Direct [0] (fun a vs => a + hd 0 vs); ByReaction [0] [0] (fun a xs vs => hd 0 xs)]
    (changed nat nat [Ask nat 1 7; SetParam nat 0 50]) /\
  changed nat nat [Ask nat 1 7; SetParam nat 0 50] 0 = true.
Proof.
  split; [|reflexivity]. intros [|[|[|i]]] rs ps f r k p E Ir Ek Ip Ec; cbn in E; try discriminate. injection E as <- <- _.
  destruct Ir as [<-|[]]. cbn in Ek. injection Ek as <-. exact Ip.
Qed.
