(* How the species of a PHREEQC instance are made: facts for C_Phreeqc. *)
From Coq Require Import Reals Lra Permutation.
From Verif Require Import Base M_Thermo M_Formation M_PhreeqcWater M_Phreeqc S_Phreeqc.
Local Open Scope nat_scope.

Arguments wf_elements {inst} _. Arguments wf_masters {inst} _. Arguments wf_species {inst} _. Arguments wf_phases {inst} _.
Arguments wf_elts {inst} _. Arguments wf_reactions {inst} _. Arguments wf_acyclic {inst} _. Arguments id_name {inst it s} _.
(* ---- Small facts ---- *)
Lemma existsb_str (n : str) l : existsb (str_eqb n) l = true <-> In n l.
Proof.
  rewrite existsb_exists. split.
  - intros (x & Hx & E). apply str_eqb_eq in E as ->. exact Hx.
  - intros H. exists n. split; [exact H|apply str_eqb_refl].
Qed.
Lemma in_names_dec (n : str) (l : list str) : {In n l} + {~ In n l}.
Proof. apply in_dec. apply str_eq_dec. Qed.

Lemma others_filter n l l' : Others n l l' <-> l' = filter (fun t => negb (str_eqb (fst t) n)) l.
Proof.
  split.
  - induction 1 as [|c l l' H IH|m c l l' Hm H IH]; cbn [filter fst]; [reflexivity| |].
    + rewrite str_eqb_refl. exact IH.
    + apply str_eqb_neq in Hm. rewrite Hm. cbn. f_equal. exact IH.
  - intros ->. induction l as [|[m c] l IH]; cbn [filter fst]; [constructor|].
    destruct (str_eqb m n) eqn:E; cbn.
    + apply str_eqb_eq in E as ->. constructor. exact IH.
    + constructor; [apply str_eqb_neq, E|exact IH].
Qed.

Lemma formed_unique it l l' : FormedFrom it l -> FormedFrom it l' -> l = l'.
Proof.
  intros H H'. inversion H as [s tk a E O Ea|p t a E Ea]; subst; inversion H' as [s' tk' a' E' O' Ea'|p' t' a' E' Ea']; subst; rewrite E in E'; injection E'; [intros ->|].
  - apply others_filter in O, O'. congruence.
  - intros ->. reflexivity.
Qed.

Lemma find_name (inst : Instance) s : NoDup (map ps_name (in_s inst)) -> In s (in_s inst) ->
  find (fun x => str_eqb (ps_name s) (ps_name x)) (in_s inst) = Some s.
Proof.
  destruct inst as [es ss ps]; cbn. induction ss as [|x ss IH]; intros ND HI; [destruct HI|]. cbn in *.
  inversion ND as [|y l Hx ND']; subst. destruct (str_eqb_spec (ps_name s) (ps_name x)) as [E|E].
  - destruct HI as [->|HI]; [reflexivity|]. destruct Hx. rewrite <- E. apply in_map. exact HI.
  - destruct HI as [->|HI]; [destruct E; reflexivity|]. apply IH; auto.
Qed.

Lemma prefixed_app t s : prefixed t s = true <-> exists b, s = t ++ b.
Proof.
  revert s; induction t as [|x t IH]; intros s.
  - cbn. split; [intros _; exists s; reflexivity|reflexivity].
  - destruct s as [|y s]; cbn.
    + split; [discriminate|]. intros (b & E). discriminate E.
    + rewrite andb_true_iff, IH. split.
      * intros [E (b & ->)]. apply Ascii.eqb_eq in E as ->. exists b. reflexivity.
      * intros (b & E). injection E as -> ->. split; [apply Ascii.eqb_refl|exists b; reflexivity].
Qed.
Lemma occurs_app t s : t <> [] -> occurs t s = true <-> exists a b, s = a ++ t ++ b.
Proof.
  intros Ht. induction s as [|y s IH].
  - cbn [occurs]. rewrite prefixed_app. split.
    + intros (b & E). destruct t; [contradiction|discriminate E].
    + intros (a & b & E). symmetry in E. apply app_eq_nil in E as [_ E]. apply app_eq_nil in E as [E _]. contradiction.
  - cbn [occurs]. rewrite orb_true_iff, prefixed_app, IH. split.
    + intros [(b & E)|(a & b & E)]; [exists [], b; exact E|]. exists (y :: a), b. cbn. congruence.
    + intros (a & b & E). destruct a as [|x a].
      * left. exists b. exact E.
      * right. injection E as -> ->. exists a, b. reflexivity.
Qed.

Lemma findWithName_spec L n : (In n (map sp_name L) /\ exists s, nth_error L (findWithName L n) = Some s /\ sp_name s = n) \/
  (~ In n (map sp_name L) /\ findWithName L n = length L).
Proof.
  induction L as [|x L IH]; cbn; [right; auto|].
  destruct (str_eqb_spec (sp_name x) n) as [E|E].
  - left. split; [auto|]. exists x. split; [reflexivity|exact E].
  - destruct IH as [(H & s & E1 & E2)|(H & E1)].
    + left. split; [auto|]. exists s. auto.
    + right. split; [intros [H'|H']; contradiction|]. cbn. congruence.
Qed.
Lemma findWithName_lt L n : In n (map sp_name L) -> findWithName L n <> length L.
Proof.
  intros H E. destruct (findWithName_spec L n) as [(_ & s & E1 & _)|(H' & _)]; [|contradiction].
  rewrite E in E1. assert (nth_error L (length L) = None) by (apply nth_error_None; auto). congruence.
Qed.

(* ---- Elements ---- *)
Lemma emplaced_id : forall l seen, NoDup (map fst l) -> (forall k, In k (map fst l) -> ~ In k seen) -> emplaced seen l = l.
Proof.
  induction l as [|[k c] l IH]; intros seen ND H; cbn [emplaced]; [reflexivity|].
  cbn in ND. inversion ND as [|y l' Hk ND']; subst.
  destruct (existsb (str_eqb k) seen) eqn:E.
  - apply existsb_str in E. destruct (H k); [left; reflexivity|exact E].
  - f_equal. apply IH; [exact ND'|]. intros k' Hk' [->|Hs]; [contradiction|]. apply (H k'); [right; exact Hk'|exact Hs].
Qed.

Section Made.
Variable water : R -> R -> WaterThermo * WaterElectro.
Variable traversal : list (str * R) -> list (str * R).
Hypothesis trav : forall l, Permutation (traversal l) l.
Variable inst : Instance.
Hypothesis WF : WellFormed inst.

Definition entry (it : Item) : Entry :=
  match it with ItSpecies s => entryOfSpecies water traversal s | ItPhase p => entryOfPhase traversal p end.
Lemma entry_name it : e_name (entry it) = item_name it.
Proof. destruct it; reflexivity. Qed.
Lemma entry_reactants it l : FormedFrom it l -> e_reactants (entry it) = Ok l.
Proof.
  intros H. inversion H as [s tk a E O Ea|p t a E Ea]; subst; cbn.
  - unfold reactantsOfSpecies. rewrite E. apply others_filter in O as ->. reflexivity.
  - unfold reactantsOfPhase. rewrite E. reflexivity.
Qed.
Lemma entry_state it : HasState it (e_state (entry it)).
Proof.
  destruct it as [s|p]; cbn.
  - unfold stateOfSpecies. destruct (ps_type s) eqn:E;
    (apply state_aqueous; rewrite E; cbn; tauto) || (apply state_exchange; exact E) ||
    (apply state_surface; rewrite E; cbn; tauto) || (apply state_none; tauto).
  - unfold stateOfPhase. destruct (occurs $"(g)" (pp_name p)) eqn:E.
    + apply occurs_app in E as (a & b & E); [|discriminate]. apply (state_gas p a b E).
    + assert (N : forall a b, pp_name p <> a ++ $"(g)" ++ b).
      { intros a b E'. assert (occurs $"(g)" (pp_name p) = true) by (apply occurs_app; [discriminate|exists a, b; exact E']). congruence. }
      destruct (pp_type p) eqn:Ep; (apply state_solid; assumption) || (apply state_other; [exact N|congruence]).
Qed.

(* The elements of the helper once all are added. *)
Definition elem_of (e : PElement) : Elem :=
  mkElem (pe_name e) (match pe_master e with Some m => m | None => [] end) (pe_gfw e / 1000)%R.
Definition helper0 : Helper := mkHelper (map elem_of (in_elements inst)) [] (map pe_name (in_elements inst)) [].
Lemma elements_added : foldM addElement (mkHelper [] [] [] []) (in_elements inst) = Ok helper0.
Proof.
  unfold helper0. destruct WF as [ND MA _ _ _ _ _].
  assert (H : forall todo done, NoDup (map pe_name (done ++ todo)) -> (forall e, In e todo -> pe_master e <> None) ->
    foldM addElement (mkHelper (map elem_of done) [] (map pe_name done) []) todo =
    Ok (mkHelper (map elem_of (done ++ todo)) [] (map pe_name (done ++ todo)) [])).
  { induction todo as [|e todo IH]; intros done HN HM.
    - cbn. rewrite app_nil_r. reflexivity.
    - cbn [foldM]. unfold addElement, containsElement. cbn [h_symbols h_elements h_species h_names].
      destruct (existsb (str_eqb (pe_name e)) (map pe_name done)) eqn:E.
      { exfalso. apply existsb_str in E. rewrite map_app in HN. cbn in HN. apply NoDup_remove_2 in HN. apply HN. apply in_app_iff. left. exact E. }
      destruct (pe_master e) as [m|] eqn:Em; [|exfalso; apply (HM e (or_introl eq_refl)); exact Em].
      cbn [bind].
      replace (map elem_of done ++ [mkElem (pe_name e) m (pe_gfw e / 1000)]) with (map elem_of (done ++ [e])).
      2:{ rewrite map_app. cbn. unfold elem_of at 2. rewrite Em. reflexivity. }
      replace (map pe_name done ++ [pe_name e]) with (map pe_name (done ++ [e])) by (rewrite map_app; reflexivity).
      rewrite IH; [rewrite <- app_assoc; reflexivity|rewrite <- app_assoc; exact HN|]. intros x Hx. apply HM. right. exact Hx. }
  apply (H (in_elements inst) []); [exact ND|exact MA].
Qed.

Lemma find_element n : In n (map pe_name (in_elements inst)) ->
  exists e, In e (in_elements inst) /\ pe_name e = n /\
    find (fun x => str_eqb n (el_symbol x)) (map elem_of (in_elements inst)) = Some (elem_of e).
Proof.
  induction (in_elements inst) as [|x l IH]; cbn [map In]; [contradiction|]. intros H. cbn [find].
  unfold elem_of at 1. cbn [el_symbol]. destruct (str_eqb_spec n (pe_name x)) as [E|E].
  - exists x. auto.
  - destruct H as [H|H]; [congruence|]. destruct (IH H) as (e & He & En & Ef). exists e. auto.
Qed.
Lemma elements_created h it : In it (items inst) -> h_elements h = map elem_of (in_elements inst) ->
  exists els, createElements h (entry it) = Ok els /\ Composition inst it els.
Proof.
  intros HI HE. destruct (wf_elts WF _ HI) as [ND Inc].
  assert (EE : Permutation (e_elements (entry it)) (item_elts it)).
  { destruct it as [s|p]; cbn; unfold elementsOf; rewrite trav, emplaced_id; auto. }
  assert (Inc' : incl (map fst (e_elements (entry it))) (map pe_name (in_elements inst))).
  { intros k Hk. apply Inc. eapply Permutation_in; [apply Permutation_map; exact EE|exact Hk]. }
  unfold createElements. rewrite HE.
  assert (G : forall l, incl (map fst l) (map pe_name (in_elements inst)) ->
    exists els, mapM (fun kc => match find (fun x => str_eqb (fst kc) (el_symbol x)) (map elem_of (in_elements inst)) with
      | Some x => Ok (x, snd kc) | None => Err end) l = Ok els /\
      map (fun ec : Elem * R => (el_symbol (fst ec), snd ec)) els = l /\
      forall e c, In (e, c) els -> exists x, In x (in_elements inst) /\ pe_name x = el_symbol e /\ pe_master x = Some (el_name e) /\ el_mass e = (pe_gfw x / 1000)%R).
  { induction l as [|[k c] l IH]; intros HI'.
    - exists []. repeat split; auto. intros e c [].
    - destruct IH as (els & E1 & E2 & E3); [intros x Hx; apply HI'; right; exact Hx|].
      destruct (find_element k (HI' k (or_introl eq_refl))) as (x & Hx & En & Ef).
      exists ((elem_of x, c) :: els). cbn [mapM fst snd]. rewrite Ef. cbn [bind]. rewrite E1. cbn [bind].
      split; [reflexivity|]. split; [cbn; rewrite E2, En; reflexivity|].
      intros e c' [E|Hin].
      + injection E as <- <-. exists x. split; [exact Hx|]. cbn. split; [reflexivity|]. split; [|reflexivity].
        destruct (pe_master x) eqn:Em; [reflexivity|]. destruct (wf_masters WF _ Hx Em).
      + apply (E3 _ _ Hin). }
  destruct (G _ Inc') as (els & E1 & E2 & E3). exists els. split; [exact E1|]. split; [|exact E3].
  rewrite E2. exact EE.
Qed.

(* ---- Closed sets of names ---- *)
Definition Closed (N : list str) : Prop :=
  forall s l n c, In s (in_s inst) -> In (ps_name s) N -> FormedFrom (ItSpecies s) l -> In (n, c) l -> In n N.
Lemma reached_closed N ys n : Closed N -> incl ys N -> Reached inst ys n -> In n N.
Proof. intros HC Hi. induction 1 as [y Hy|s l n c Hs _ IH HF Hn]; [apply Hi; exact Hy|]. apply (HC s l n c Hs IH HF Hn). Qed.
Lemma reached_trans ys zs n : (forall y, In y ys -> Reached inst zs y) -> Reached inst ys n -> Reached inst zs n.
Proof. intros H. induction 1 as [y Hy|s l n c Hs _ IH HF Hn]; [apply H; exact Hy|]. apply (reached_next inst zs s l n c Hs IH HF Hn). Qed.
Lemma reached_incl ys zs n : incl ys zs -> Reached inst ys n -> Reached inst zs n.
Proof. intros H. apply reached_trans. intros y Hy. apply reached_here. apply H. exact Hy. Qed.

(* ---- What is known of the list ---- *)
(* Whether the reactants of an item have to be the right ones. *)
Variable W : Item -> Prop.
Hypothesis Wmono : forall s it, W (ItSpecies s) -> W it.
Variable Ss : list Item.
Hypothesis Ss_items : incl Ss (items inst).
Hypothesis Ss_species : incl (species_items inst) Ss.

Definition Pairs (w : Prop) (L : list Sp) (pairs : list (Reactant * R)) (l : list (str * R)) : Prop :=
  Forall2 (fun x t => exists y, In y L /\ fst x = asReactant y /\ snd x = snd t /\ (w -> sp_name y = fst t)) pairs l.
Definition Built (L : list Sp) (it : Item) (l : list (str * R)) (s : Sp) : Prop :=
  match l with
  | [] => sp_reaction s = newFormationReaction /\ sp_props s = fun T P => Ok (mkStdProps 0 0 (e_volume (entry it) T P) 0 0)
  | _ => exists pairs, Pairs (W it) L pairs l /\ sp_reaction s = mkFR pairs (Some (e_model (entry it) l)) (Some (e_volume (entry it))) /\
      sp_props s = productProps pairs (e_model (entry it) l) (Some (e_volume (entry it)))
  end.
Definition Made (L : list Sp) (it : Item) (s : Sp) : Prop :=
  Identity inst it s /\ (exists l, FormedFrom it l /\ incl (map fst l) (map sp_name L) /\ Built L it l s) /\
  forall T P, exists p, sp_props s T P = Ok p.
Record Inv (h : Helper) : Prop := {
  inv_elements : h_elements h = map elem_of (in_elements inst);
  inv_names : h_names h = map sp_name (h_species h);
  inv_nodup : NoDup (h_names h);
  inv_made : forall s, In s (h_species h) -> exists it, In it Ss /\ Made (h_species h) it s /\
    (In (item_name it) (map ps_name (in_s inst)) -> In it (species_items inst)) }.

Lemma pairs_mono w L L' pairs l : incl L L' -> Pairs w L pairs l -> Pairs w L' pairs l.
Proof.
  intros Hi H. induction H as [|x t pairs l (y & Hy & E) H IH]; constructor; [|exact IH].
  exists y. split; [apply Hi; exact Hy|exact E].
Qed.
Lemma made_mono L L' it s : incl L L' -> Made L it s -> Made L' it s.
Proof.
  intros Hi (HI & (l & HF & Hl & HB) & HT). split; [exact HI|]. split; [|exact HT].
  exists l. split; [exact HF|]. split.
  - intros n Hn. apply Hl in Hn. apply in_map_iff in Hn as (y & <- & Hy). apply in_map. apply Hi. exact Hy.
  - destruct l; [exact HB|]. destruct HB as (pairs & HP & E). exists pairs. split; [apply (pairs_mono _ _ _ _ _ Hi HP)|exact E].
Qed.

(* Species with the same name as one of the list that was made from a species. *)
Lemma species_unique s s' : In s (in_s inst) -> In s' (in_s inst) -> ps_name s = ps_name s' -> s = s'.
Proof.
  intros H H' E. pose proof (find_name inst s (wf_species WF) H) as F. pose proof (find_name inst s' (wf_species WF) H') as F'.
  rewrite E in F. congruence.
Qed.
Lemma inv_closed h : Inv h -> Closed (h_names h).
Proof.
  intros [_ EN _ HM] s l n c Hs Hn HF Hin. rewrite EN in Hn |- *. apply in_map_iff in Hn as (x & Ex & Hx).
  destruct (HM x Hx) as (it & _ & (HI & (l' & HF' & Hl & _) & _) & Hsp).
  assert (In it (species_items inst)) as H.
  { apply Hsp. rewrite <- (id_name HI), Ex. apply in_map. exact Hs. }
  apply in_map_iff in H as (s' & <- & Hs'). assert (s' = s) as ->.
  { apply species_unique; auto. rewrite <- Ex, (id_name HI). reflexivity. }
  rewrite (formed_unique _ _ _ HF HF') in Hin. apply Hl. apply in_map_iff. exists (n, c). auto.
Qed.

(* The condition under which the reactants of an item are the right ones, in terms
   of the names that are there. *)
Definition Ready (N : list str) (it : Item) : Prop :=
  forall l l1 t l2, FormedFrom it l -> l = l1 ++ t :: l2 -> forall N', Closed N' -> incl N N' -> incl (map fst l1) N' ->
  In (fst t) N' \/ forall q lq n c, In q (in_s inst) -> ps_name q = fst t -> FormedFrom (ItSpecies q) lq -> In (n, c) lq -> In n N'.

Lemma props_total w L it l pairs : (forall s, In s L -> forall T P, exists p, sp_props s T P = Ok p) -> Pairs w L pairs l ->
  forall T P, exists p, productProps pairs (e_model (entry it) l) (Some (e_volume (entry it))) T P = Ok p.
Proof.
  intros HT HP T P.
  assert (exists ps, mapM (fun rc => rt_props (fst rc) T P) pairs = Ok ps) as (ps & E).
  { induction HP as [|x t pairs l (y & Hy & Ey & _) HP IH]; [exists []; reflexivity|].
    destruct IH as (ps & Eps). destruct (HT y Hy T P) as (p & Ep). exists (p :: ps). cbn [mapM]. rewrite Ey. cbn [rt_props asReactant].
    rewrite Ep. cbn [bind]. rewrite Eps. reflexivity. }
  unfold productProps. rewrite E. cbn [bind]. eexists. reflexivity.
Qed.

(* ---- Adding an item ---- *)
Variable rank : str -> nat.
Hypothesis ranked : forall s l n c, In s (in_s inst) -> FormedFrom (ItSpecies s) l -> In (n, c) l -> rank n < rank (ps_name s).
(* The same condition, with what is reached from the names. *)
Definition ReadyR (N : list str) (rs : list (str * R)) : Prop :=
  forall l1 t l2, rs = l1 ++ t :: l2 ->
  Reached inst (map fst l1 ++ N) (fst t) \/
  forall q lq n c, In q (in_s inst) -> ps_name q = fst t -> FormedFrom (ItSpecies q) lq -> In (n, c) lq -> Reached inst (map fst l1 ++ N) n.
Definition RightNames (pairs : list (Reactant * R)) (l : list (str * R)) : Prop :=
  Forall2 (fun x t => rt_name (fst x) = fst t) pairs l.
(* What addSpecies does to a helper. *)
Record Added (h h' : Helper) (it : Item) : Prop := {
  added_inv : Inv h';
  added_new : exists new, h_species h' = h_species h ++ new;
  added_in : In (item_name it) (h_names h');
  added_reached : forall n, In n (h_names h') -> Reached inst (item_name it :: h_names h) n;
  added_last : ~ In (item_name it) (h_names h) -> exists new s l, h_species h' = h_species h ++ new ++ [s] /\ sp_name s = item_name it /\
    FormedFrom it l /\ (incl (map fst l) (h_names h) <-> new = []) /\ (RightNames (fr_reactants (sp_reaction s)) l -> ReadyR (h_names h) l);
  added_here : In (item_name it) (h_names h) -> h' = h }.

Section Reactants.
Variable add : Helper -> Entry -> outcome Helper.
Variable bound : nat.
Hypothesis add_ok : forall h s, Inv h -> In s (in_s inst) -> rank (ps_name s) < bound -> (W (ItSpecies s) -> Ready (h_names h) (ItSpecies s)) ->
  exists h', add h (entry (ItSpecies s)) = Ok h' /\ Added h h' (ItSpecies s).

Variable w : Prop.
Hypothesis Hw : forall s, W (ItSpecies s) -> w.
Definition ReadyList (N : list str) (rs : list (str * R)) : Prop :=
  forall l1 t l2, rs = l1 ++ t :: l2 -> forall N', Closed N' -> incl N N' -> incl (map fst l1) N' ->
  In (fst t) N' \/ forall q lq n c, In q (in_s inst) -> ps_name q = fst t -> FormedFrom (ItSpecies q) lq -> In (n, c) lq -> In n N'.

Lemma names_grow h h' new : Inv h -> Inv h' -> h_species h' = h_species h ++ new -> h_names h' = h_names h ++ map sp_name new.
Proof. intros H H' E. rewrite (inv_names _ H), (inv_names _ H'), E, map_app. reflexivity. Qed.

Lemma reactant_ok h r : Inv h -> In (fst r) (map ps_name (in_s inst)) -> rank (fst r) < bound ->
  (w -> In (fst r) (h_names h) \/ forall q lq n c, In q (in_s inst) -> ps_name q = fst r -> FormedFrom (ItSpecies q) lq -> In (n, c) lq -> In n (h_names h)) ->
  exists h' x, createReactant water traversal inst add h r = Ok (h', (asReactant x, snd r)) /\ Inv h' /\
    (exists new, h_species h' = h_species h ++ new) /\ In x (h_species h') /\ (w -> sp_name x = fst r) /\ In (fst r) (h_names h') /\
    (forall n, In n (h_names h') -> Reached inst (fst r :: h_names h) n) /\ (In (fst r) (h_names h) -> h' = h) /\
    (sp_name x = fst r -> In (fst r) (h_names h) \/ forall q lq n c, In q (in_s inst) -> ps_name q = fst r -> FormedFrom (ItSpecies q) lq -> In (n, c) lq -> In n (h_names h)).
Proof.
  intros HI Hs Hr HW. apply in_map_iff in Hs as (s & Es & Hs).
  unfold createReactant, deref. rewrite <- Es. rewrite (find_name inst s (wf_species WF) Hs). cbn [bind].
  rewrite Es. destruct (findWithName_spec (h_species h) (fst r)) as [(Hin & x & Ex & En)|(Hin & Ef)].
  - pose proof (findWithName_lt _ _ Hin) as Hlt. apply Nat.eqb_neq in Hlt. rewrite Hlt. cbn [bind]. rewrite Ex.
    rewrite <- (inv_names _ HI) in Hin.
    exists h, x. split; [reflexivity|]. split; [exact HI|]. split; [exists []; rewrite app_nil_r; reflexivity|].
    split; [apply nth_error_In in Ex; exact Ex|]. split; [auto|]. split; [exact Hin|]. split; [|split; [auto|auto]].
    intros n Hn. apply reached_here. right. exact Hn.
  - rewrite <- (inv_names _ HI) in Hin. rewrite Ef, Nat.eqb_refl.
    destruct (add_ok h s) as (h' & Ea & HA); auto.
    { rewrite Es. exact Hr. }
    { intros w' l l1 t l2 HF El N' HC Hi Hl1. left. destruct (HW (Hw s w')) as [C|HR]; [contradiction|].
      apply Hi. destruct t as [n c]. apply (HR s l n c Hs Es HF). rewrite El. apply in_app_iff. right. left. reflexivity. }
    change (entryOfSpecies water traversal s) with (entry (ItSpecies s)). rewrite Ea. cbn [bind].
    destruct HA as [HI' (new & En) Hin' HR HL _]. cbn [item_name] in *. rewrite Es in *.
    destruct (HL Hin) as (new' & x' & l & En' & Ex' & HF & Hiff & _).
    assert (exists x, nth_error (h_species h') (length (h_species h)) = Some x /\ (sp_name x = fst r <-> new' = [])) as (x & Ex & Hx).
    { rewrite En'. rewrite nth_error_app2, Nat.sub_diag by lia. destruct new' as [|y new'].
      - exists x'. split; [reflexivity|]. split; [reflexivity|intros _; exact Ex'].
      - exists y. split; [reflexivity|]. split; [|discriminate]. intros Ey. exfalso.
        pose proof (inv_nodup _ HI') as ND. rewrite (inv_names _ HI'), En', map_app in ND. cbn [map app] in ND.
        apply NoDup_remove_2 in ND. apply ND. apply in_app_iff. right. rewrite Ey, <- Ex'. rewrite map_app. apply in_app_iff. right. left. reflexivity. }
    rewrite Ex. exists h', x. split; [reflexivity|]. split; [exact HI'|]. split; [exists new; exact En|].
    split; [apply nth_error_In in Ex; exact Ex|]. split; [|split; [exact Hin'|]].
    { intros w'. apply Hx, Hiff. intros n Hn. apply in_map_iff in Hn as ([n' c] & <- & Hn). destruct (HW w') as [C|Hq]; [contradiction|].
      apply (Hq s l n' c Hs Es HF Hn). }
    split; [exact HR|]. split; [intros C; contradiction|]. intros Ey. right. intros q lq n c Hq Eq HFq Hn.
    assert (q = s) as -> by (apply species_unique; congruence). rewrite (formed_unique _ _ _ HFq HF) in Hn.
    apply (proj2 Hiff (proj1 Hx Ey)). apply in_map_iff. exists (n, c). auto.
Qed.

Lemma reactants_ok : forall rs h, Inv h -> incl (map fst rs) (map ps_name (in_s inst)) -> (forall n c, In (n, c) rs -> rank n < bound) ->
  (w -> ReadyList (h_names h) rs) ->
  exists h' pairs, createReactants water traversal inst add h rs = Ok (h', pairs) /\ Inv h' /\
    (exists new, h_species h' = h_species h ++ new) /\ Pairs w (h_species h') pairs rs /\ incl (map fst rs) (h_names h') /\
    (forall n, In n (h_names h') -> Reached inst (map fst rs ++ h_names h) n) /\ (incl (map fst rs) (h_names h) -> h' = h) /\
    (RightNames pairs rs -> ReadyR (h_names h) rs).
Proof.
  induction rs as [|r rs IH]; intros h HI Hs Hb HW.
  - exists h, []. cbn. split; [reflexivity|]. split; [exact HI|]. split; [exists []; rewrite app_nil_r; reflexivity|].
    split; [constructor|]. split; [intros n []|]. split; [intros n Hn; apply reached_here; exact Hn|]. split; [auto|].
    intros _ l1 t l2 E. destruct l1; discriminate E.
  - destruct (reactant_ok h r) as (h1 & x & E1 & HI1 & (new1 & En1) & Hx & Wx & Hin1 & HR1 & Hsame1 & Hright1); auto.
    { apply Hs. left. reflexivity. }
    { destruct r as [n c]. apply (Hb n c). left. reflexivity. }
    { intros w'. apply (HW w' [] r rs eq_refl (h_names h)); [apply inv_closed; exact HI|apply incl_refl|intros n []]. }
    assert (Hinc1 : incl (h_names h) (h_names h1)).
    { rewrite (names_grow _ _ _ HI HI1 En1). apply incl_appl, incl_refl. }
    destruct (IH h1) as (h2 & pairs & E2 & HI2 & (new2 & En2) & HP2 & Hinc2 & HR2 & Hsame2 & Hright2); auto.
    { intros n Hn. apply Hs. right. exact Hn. }
    { intros n c Hn. apply (Hb n c). right. exact Hn. }
    { intros w' l1 t l2 El N' HC Hi Hl. apply (HW w' (r :: l1) t l2); [cbn; congruence|exact HC|intros n Hn; apply Hi, Hinc1, Hn|].
      intros n [<-|Hn]; [apply Hi; exact Hin1|apply Hl; exact Hn]. }
    assert (Hinc2' : incl (h_names h1) (h_names h2)).
    { rewrite (names_grow _ _ _ HI1 HI2 En2). apply incl_appl, incl_refl. }
    exists h2, ((asReactant x, snd r) :: pairs). cbn [createReactants]. rewrite E1. cbn [bind fst snd]. rewrite E2. cbn [bind fst snd].
    split; [reflexivity|]. split; [exact HI2|]. split; [exists (new1 ++ new2); rewrite En2, En1, app_assoc; reflexivity|].
    split.
    { constructor; [|exact HP2]. exists x. split; [rewrite En2; apply in_app_iff; left; exact Hx|]. cbn. auto. }
    split.
    { intros n [<-|Hn]; [apply Hinc2'; exact Hin1|apply Hinc2; exact Hn]. }
    split.
    { intros n Hn. apply HR2 in Hn. revert Hn. apply reached_trans. intros y Hy. apply in_app_iff in Hy as [Hy|Hy].
      - apply reached_here. cbn. right. apply in_app_iff. left. exact Hy.
      - apply HR1 in Hy. revert Hy. apply reached_incl. intros z [<-|Hz]; cbn; [left; reflexivity|right; apply in_app_iff; right; exact Hz]. }
    split.
    { intros Hi. assert (h1 = h) as -> by (apply Hsame1, Hi; left; reflexivity). apply Hsame2. intros n Hn. apply Hi. right. exact Hn. }
    intros HRN. inversion HRN as [|a b c d Ha Hc]; subst. cbn [fst rt_name asReactant] in Ha.
    intros l1 t l2 El. destruct l1 as [|r' l1]; cbn in El; injection El as <- El.
    + subst l2. cbn [map app]. destruct (Hright1 Ha) as [Hn|Hq].
      * left. apply reached_here. exact Hn.
      * right. intros q lq n c Hq1 Hq2 Hq3 Hq4. apply reached_here. apply (Hq q lq n c Hq1 Hq2 Hq3 Hq4).
    + assert (T : forall n, Reached inst (map fst l1 ++ h_names h1) n -> Reached inst (map fst (r :: l1) ++ h_names h) n).
      { intros n. apply reached_trans. intros y Hy. apply in_app_iff in Hy as [Hy|Hy].
        - apply reached_here. cbn. right. apply in_app_iff. left. exact Hy.
        - apply HR1 in Hy. revert Hy. apply reached_incl. intros z [<-|Hz]; cbn; [left; reflexivity|right; apply in_app_iff; right; exact Hz]. }
      destruct (Hright2 Hc l1 t l2 El) as [Hn|Hq]; [left; apply T; exact Hn|right]. intros q lq n c' Hq1 Hq2 Hq3 Hq4. apply T. apply (Hq q lq n c' Hq1 Hq2 Hq3 Hq4).
Qed.
End Reactants.

Lemma inv_append h it s : Inv h -> In it Ss -> ~ In (item_name it) (h_names h) -> sp_name s = item_name it -> Made (h_species h ++ [s]) it s ->
  (In (item_name it) (map ps_name (in_s inst)) -> In it (species_items inst)) -> Inv (appendSpecies h s (item_name it)).
Proof.
  intros [E1 E2 E3 E4] HS HN Es HM Hown. constructor; cbn [appendSpecies h_elements h_species h_names].
  - exact E1.
  - rewrite map_app, E2. cbn. rewrite Es. reflexivity.
  - apply NoDup_Add with (a := item_name it) (l := h_names h); [|split; assumption].
    pose proof (Add_app (item_name it) (h_names h) []) as A. rewrite app_nil_r in A. exact A.
  - intros x Hx. apply in_app_iff in Hx as [Hx|[<-|[]]].
    + destruct (E4 x Hx) as (it' & A & B & C). exists it'. split; [exact A|]. split; [|exact C].
      apply (made_mono (h_species h)); [apply incl_appl, incl_refl|exact B].
    + exists it. auto.
Qed.

Lemma add_spec : forall fuel it h, Inv h -> In it Ss -> (In it (species_items inst) \/ incl (map ps_name (in_s inst)) (h_names h)) ->
  0 < fuel -> (forall l n c, FormedFrom it l -> In (n, c) l -> S (rank n) < fuel) -> (W it -> Ready (h_names h) it) ->
  exists h', addSpecies water traversal inst fuel h (entry it) = Ok h' /\ Added h h' it.
Proof.
  induction fuel as [|fuel IH]; intros it h HI HS Hown Hf Hr HW; [lia|].
  cbn [addSpecies]. rewrite entry_name. unfold containsSpecies. destruct (existsb (str_eqb (item_name it)) (h_names h)) eqn:EC.
  { apply existsb_str in EC. exists h. split; [reflexivity|]. constructor; auto.
    - exists []. rewrite app_nil_r. reflexivity.
    - intros n Hn. apply reached_here. right. exact Hn.
    - intros C. contradiction. }
  assert (HN : ~ In (item_name it) (h_names h)).
  { intros C. apply existsb_str in C. congruence. }
  assert (Hown' : In (item_name it) (map ps_name (in_s inst)) -> In it (species_items inst)).
  { intros H. destruct Hown as [H'|H']; [exact H'|]. destruct HN. apply H'. exact H. }
  destruct (wf_reactions WF it (Ss_items it HS)) as (rs & HF & Hrs).
  rewrite (entry_reactants it rs HF). cbn [bind].
  destruct (elements_created h it (Ss_items it HS) (inv_elements _ HI)) as (els & Eels & Hels).
  destruct rs as [|r rs].
  - (* a master species *)
    unfold createMasterSpecies. rewrite Eels. cbn [bind]. rewrite entry_name.
    set (s := mkSp (item_name it) (e_formula (entry it)) els (e_charge (entry it)) (e_state (entry it)) newFormationReaction
      (fun T P => Ok (mkStdProps 0 0 (e_volume (entry it) T P) 0 0))).
    assert (HM : Made (h_species h ++ [s]) it s).
    { split; [|split].
      - constructor; cbn; [reflexivity|destruct it; reflexivity|destruct it; reflexivity|apply entry_state|exact Hels].
      - exists []. split; [exact HF|]. split; [intros n []|]. split; reflexivity.
      - intros T P. eexists. reflexivity. }
    eexists. split; [reflexivity|]. pose proof (inv_append h it s HI HS HN eq_refl HM Hown') as HI'.
    constructor.
    + exact HI'.
    + exists [s]. reflexivity.
    + cbn. apply in_app_iff. right. left. reflexivity.
    + cbn. intros n Hn. apply reached_here. apply in_app_iff in Hn as [Hn|[<-|[]]]; [right; exact Hn|left; reflexivity].
    + intros _. exists [], s, []. split; [reflexivity|]. split; [reflexivity|]. split; [exact HF|]. split; [split; [reflexivity|intros _ n []]|].
      intros _ l1 t l2 E. destruct l1; discriminate E.
    + intros C. contradiction.
  - (* a product species *)
    destruct (reactants_ok (addSpecies water traversal inst fuel) fuel) with (w := W it) (rs := r :: rs) (h := h)
      as (h1 & pairs & Ec & HI1 & (new & En) & HP & Hinc & HR & Hsame & Hright); auto.
    { intros h0 s HI0 Hs Hb Hw. apply IH; auto.
      - apply Ss_species. apply in_map. exact Hs.
      - left. apply in_map. exact Hs.
      - lia.
      - intros l n c HFs Hn. pose proof (ranked s l n c Hs HFs Hn). lia. }
    { intros s. apply Wmono. }
    { intros n c Hn. pose proof (Hr _ n c HF Hn). lia. }
    { intros w l1 t l2 El. apply (HW w _ l1 t l2 HF El). }
    unfold createProductSpecies. rewrite Eels. cbn [bind]. rewrite Ec. cbn [bind fst snd].
    unfold withReactionThermoModel, withProductStandardVolumeModel, withReactants, newFormationReaction. cbn [fr_reactants fr_rxn fr_vol].
    unfold createStandardThermoModel. cbn [fr_reactants fr_rxn fr_vol].
    destruct pairs as [|x pairs]; [inversion HP|]. cbn [bind]. rewrite entry_name.
    set (s := mkSp (item_name it) (e_formula (entry it)) els (e_charge (entry it)) (e_state (entry it))
      (mkFR (x :: pairs) (Some (e_model (entry it) (r :: rs))) (Some (e_volume (entry it))))
      (productProps (x :: pairs) (e_model (entry it) (r :: rs)) (Some (e_volume (entry it))))).
    assert (Hincn : h_names h1 = h_names h ++ map sp_name new) by (apply (names_grow _ _ _ HI HI1 En)).
    (* the item itself has not been added meanwhile *)
    assert (HN1 : ~ In (item_name it) (h_names h1)).
    { intros C. pose proof (HR _ C) as HRC.
      assert (G : forall n, Reached inst (map fst (r :: rs) ++ h_names h) n -> In n (h_names h) \/ (it = it -> In n (map ps_name (in_s inst)) /\ forall s0, it = ItSpecies s0 -> rank n < rank (ps_name s0))).
      { induction 1 as [y Hy|s0 l n c Hs0 _ IHr HF0 Hn].
        - apply in_app_iff in Hy as [Hy|Hy]; [|left; exact Hy]. right. intros _. split; [apply Hrs; exact Hy|].
          intros s0 ->. apply in_map_iff in Hy as ([n c] & <- & Hn).
          apply (ranked s0 (r :: rs) n c); [|exact HF|exact Hn].
          destruct Hown as [H|H].
          + apply in_map_iff in H as (s1 & E & H). injection E as <-. exact H.
          + exfalso. specialize (Ss_items _ HS). apply in_app_iff in Ss_items as [H'|H'].
            * apply in_map_iff in H' as (s1 & E & H'). injection E as <-. apply HN. apply H. cbn. apply in_map. exact H'.
            * apply in_map_iff in H' as (s1 & E & _). discriminate E.
        - destruct IHr as [H|H].
          + left. apply (inv_closed h HI s0 l n c Hs0 H HF0 Hn).
          + right. intros E. destruct (H E) as [H1 H2]. split.
            * destruct (wf_reactions WF (ItSpecies s0)) as (l' & HF' & Hl').
              { apply in_app_iff. left. apply in_map. exact Hs0. }
              rewrite (formed_unique _ _ _ HF0 HF') in Hn. apply Hl'. apply in_map_iff. exists (n, c). auto.
            * intros s1 E1. pose proof (H2 s1 E1). pose proof (ranked s0 l n c Hs0 HF0 Hn). lia. }
      destruct (G _ HRC) as [H|H]; [contradiction|]. destruct (H eq_refl) as [H1 H2].
      apply Hown' in H1. apply in_map_iff in H1 as (s0 & E0 & _). symmetry in E0. pose proof (H2 s0 E0) as H3. rewrite E0 in H3. cbn in H3. lia. }
    assert (HM : Made (h_species h1 ++ [s]) it s).
    { split; [|split].
      - constructor; cbn; [reflexivity|destruct it; reflexivity|destruct it; reflexivity|apply entry_state|exact Hels].
      - exists (r :: rs). split; [exact HF|]. split.
        + intros n Hn. rewrite map_app. apply in_app_iff. left. rewrite <- (inv_names _ HI1). apply Hinc. exact Hn.
        + exists (x :: pairs). split; [|split; reflexivity]. apply (pairs_mono _ (h_species h1)); [apply incl_appl, incl_refl|exact HP].
      - cbn [sp_props s]. apply (props_total (W it) (h_species h1)); [|exact HP].
        intros y Hy. destruct (inv_made _ HI1 y Hy) as (it' & _ & (_ & _ & T) & _). exact T. }
    eexists. split; [reflexivity|]. pose proof (inv_append h1 it s HI1 HS HN1 eq_refl HM Hown') as HI'.
    constructor.
    + exact HI'.
    + exists (new ++ [s]). cbn. rewrite En, app_assoc. reflexivity.
    + cbn. apply in_app_iff. right. left. reflexivity.
    + cbn [h_names appendSpecies fst]. intros n Hn. apply in_app_iff in Hn as [Hn|[<-|[]]]; [|apply reached_here; left; reflexivity].
      apply HR in Hn. revert Hn. apply reached_trans. intros y Hy. apply in_app_iff in Hy as [Hy|Hy]; [|apply reached_here; right; exact Hy].
      apply in_map_iff in Hy as ([n' c] & <- & Hn').
      destruct it as [s0|p0].
      * apply (reached_next inst _ s0 (r :: rs) n' c); [|apply reached_here; left; reflexivity|exact HF|exact Hn'].
        specialize (Ss_items _ HS). apply in_app_iff in Ss_items as [H'|H']; apply in_map_iff in H' as (s1 & E & H'); [injection E as <-; exact H'|discriminate E].
      * apply reached_here. right. destruct Hown as [H|H]; [apply in_map_iff in H as (s1 & E & _); discriminate E|].
        apply H. apply Hrs. apply in_map_iff. exists (n', c). auto.
    + intros _. exists new, s, (r :: rs). split; [cbn; rewrite En, app_assoc; reflexivity|]. split; [reflexivity|]. split; [exact HF|]. split.
      * split.
        -- intros Hi. assert (h1 = h) as Eh by (apply Hsame; exact Hi). rewrite Eh in En.
           symmetry in En. rewrite <- (app_nil_r (h_species h)) in En at 2. apply app_inv_head in En. exact En.
        -- intros ->. rewrite Hincn in Hinc. cbn in Hinc. rewrite app_nil_r in Hinc. exact Hinc.
      * cbn [sp_reaction s fr_reactants]. exact Hright.
    + intros C. contradiction.
Qed.
End Made.

(* ---- A rank no larger than the number of species ---- *)
Lemma rank_exists inst : WellFormed inst -> exists rank : str -> nat,
  (forall s l n c, In s (in_s inst) -> FormedFrom (ItSpecies s) l -> In (n, c) l -> rank n < rank (ps_name s)) /\
  forall n, rank n <= length (in_s inst).
Proof.
  intros WF. destruct (wf_acyclic WF) as (r & Hr).
  exists (fun n => length (filter (fun s => r (ps_name s) <? r n) (in_s inst))). split.
  - intros s l n c Hs HF Hn. pose proof (Hr s l n c Hs HF Hn) as Hlt.
    assert (Hq : exists q, In q (in_s inst) /\ ps_name q = n).
    { destruct (wf_reactions WF (ItSpecies s)) as (l' & HF' & Hl'); [apply in_app_iff; left; apply in_map; exact Hs|].
      rewrite (formed_unique _ _ _ HF HF') in Hn. assert (In n (map ps_name (in_s inst))) as H.
      { apply Hl'. apply in_map_iff. exists (n, c). auto. }
      apply in_map_iff in H as (q & E & H). exists q. auto. }
    destruct Hq as (q & Hq & <-).
    assert (G : forall L, In q L -> length (filter (fun x => r (ps_name x) <? r (ps_name q)) L) < length (filter (fun x => r (ps_name x) <? r (ps_name s)) L)).
    { assert (M : forall L, length (filter (fun x => r (ps_name x) <? r (ps_name q)) L) <= length (filter (fun x => r (ps_name x) <? r (ps_name s)) L)).
      { induction L as [|x L IH]; cbn [filter length]; [lia|].
        destruct (Nat.ltb_spec (r (ps_name x)) (r (ps_name q))); destruct (Nat.ltb_spec (r (ps_name x)) (r (ps_name s))); cbn [length]; lia. }
      induction L as [|x L IH]; intros HL; [destruct HL|]. destruct HL as [->|HL]; cbn [filter].
      - rewrite Nat.ltb_irrefl. apply Nat.ltb_lt in Hlt. rewrite Hlt. cbn [length]. pose proof (M L). lia.
      - pose proof (IH HL).
        destruct (Nat.ltb_spec (r (ps_name x)) (r (ps_name q))); destruct (Nat.ltb_spec (r (ps_name x)) (r (ps_name s))); cbn [length]; lia. }
    apply G. exact Hq.
  - intros n. generalize (in_s inst) as L. intros L. induction L as [|x L IH]; cbn [filter length]; [lia|]. destruct (r (ps_name x) <? r n); cbn [length]; lia.
Qed.

(* ---- Loading ---- *)
Section Load.
Variable water : R -> R -> WaterThermo * WaterElectro.
Variable traversal : list (str * R) -> list (str * R).
Hypothesis trav : forall l, Permutation (traversal l) l.
Variable inst : Instance.
Hypothesis WF : WellFormed inst.
(* Whether the reactants of species have to be the right ones; those of phases do. *)
Variable Wp : Prop.
Hypothesis HW : Wp -> Prepared inst.
Let W (it : Item) : Prop := match it with ItSpecies _ => Wp | ItPhase _ => True end.
Let Wmono : forall s it, W (ItSpecies s) -> W it.
Proof. intros s [s'|p]; cbn; auto. Qed.

Lemma inv_scope Ss Ss' h : incl Ss Ss' -> Inv water traversal inst W Ss h -> Inv water traversal inst W Ss' h.
Proof.
  intros Hi [A B C D]. constructor; auto. intros s Hs. destruct (D s Hs) as (it & H1 & H2). exists it. auto.
Qed.

(* The names of the reactants are right, for every species of the list. *)
Definition AllRight (L : list Sp) : Prop :=
  forall s x l, In s (in_s inst) -> In x L -> sp_name x = ps_name s -> FormedFrom (ItSpecies s) l -> RightNames (fr_reactants (sp_reaction x)) l.
Definition PreparedFrom (m : nat) : Prop :=
  forall before s after l l1 t l2, in_s inst = before ++ s :: after -> m <= length before -> FormedFrom (ItSpecies s) l -> l = l1 ++ t :: l2 ->
  let ys := map ps_name before ++ map fst l1 in
  Reached inst (map ps_name before) (ps_name s) \/ Reached inst ys (fst t) \/
  forall q lq, In q (in_s inst) -> ps_name q = fst t -> FormedFrom (ItSpecies q) lq -> forall n c, In (n, c) lq -> Reached inst ys n.

Lemma species_loaded : forall after before h, in_s inst = before ++ after -> Inv water traversal inst W (species_items inst) h ->
  incl (map ps_name before) (h_names h) -> (forall n, In n (h_names h) -> Reached inst (map ps_name before) n) ->
  exists h', foldM (addSpecies water traversal inst (S (S (length (in_s inst))))) h (map (entryOfSpecies water traversal) after) = Ok h' /\
    Inv water traversal inst W (species_items inst) h' /\ (exists new, h_species h' = h_species h ++ new) /\ incl (map ps_name (in_s inst)) (h_names h') /\
    (AllRight (h_species h') -> PreparedFrom (length before)).
Proof.
  destruct (rank_exists inst WF) as (rank & Hrank & Hlen).
  induction after as [|s after IH]; intros before h Es HI Hb HR.
  - exists h. split; [reflexivity|]. split; [exact HI|]. split; [exists []; rewrite app_nil_r; reflexivity|]. rewrite app_nil_r in Es. split; [rewrite Es; exact Hb|].
    intros _ b' s' a' l l1 t l2 E HL. exfalso. rewrite Es in E. apply (f_equal (@length _)) in E. rewrite app_length in E. cbn in E. lia.
  - assert (Hs : In s (in_s inst)) by (rewrite Es; apply in_app_iff; right; left; reflexivity).
    destruct (add_spec water traversal trav inst WF W Wmono (species_items inst)) with (rank := rank) (fuel := S (S (length (in_s inst)))) (it := ItSpecies s) (h := h)
      as (h1 & E1 & HA); auto.
    { apply incl_appl, incl_refl. }
    { apply incl_refl. }
    { apply in_map. exact Hs. }
    { left. apply in_map. exact Hs. }
    { lia. }
    { intros l n c _ _. pose proof (Hlen n). lia. }
    { (* the condition of the instance, for the names that are there *)
      intros w l l1 t l2 HF El N' HC Hi Hl1.
      destruct (HW w before s after l l1 t l2 Es HF El) as [H|[H|H]].
      - left. destruct t as [n c]. apply (HC s l n c Hs); [|exact HF|rewrite El; apply in_app_iff; right; left; reflexivity].
        apply (reached_closed _ _ _ _ HC) with (2 := H). intros y Hy. apply Hi, Hb, Hy.
      - left. apply (reached_closed _ _ _ _ HC) with (2 := H). intros y Hy. apply in_app_iff in Hy as [Hy|Hy]; [apply Hi, Hb, Hy|apply Hl1, Hy].
      - right. intros q lq n c Hq Eq HFq Hn. apply (reached_closed _ _ _ _ HC) with (2 := H q lq Hq Eq HFq n c Hn).
        intros y Hy. apply in_app_iff in Hy as [Hy|Hy]; [apply Hi, Hb, Hy|apply Hl1, Hy]. }
    destruct HA as [HI1 (new1 & En1) Hin1 HR1 HL1 HH1]. cbn [item_name] in *.
    assert (Hinc1 : incl (h_names h) (h_names h1)).
    { rewrite (inv_names _ _ _ _ _ _ HI), (inv_names _ _ _ _ _ _ HI1), En1, map_app. apply incl_appl, incl_refl. }
    destruct (IH (before ++ [s]) h1) as (h2 & E2 & HI2 & (new2 & En2) & Hall & Hprep); auto.
    { rewrite <- app_assoc. exact Es. }
    { intros n Hn. rewrite map_app in Hn. apply in_app_iff in Hn as [Hn|[<-|[]]]; [apply Hinc1, Hb, Hn|exact Hin1]. }
    { intros n Hn. apply HR1 in Hn. revert Hn. apply reached_trans. intros y [<-|Hy].
      - apply reached_here. rewrite map_app. apply in_app_iff. right. left. reflexivity.
      - apply HR in Hy. revert Hy. apply reached_incl. rewrite map_app. apply incl_appl, incl_refl. }
    exists h2. cbn [map foldM]. change (entryOfSpecies water traversal s) with (entry water traversal (ItSpecies s)) at 1. rewrite E1. cbn [bind].
    split; [exact E2|]. split; [exact HI2|]. split; [exists (new1 ++ new2); rewrite En2, En1, app_assoc; reflexivity|]. split; [exact Hall|].
    intros HAR. pose proof (Hprep HAR) as Hp. rewrite app_length in Hp. cbn in Hp.
    intros b' s' a' l l1 t l2 E HL HF El. destruct (Nat.eq_dec (length b') (length before)) as [Elen|Elen].
    2:{ apply (Hp b' s' a' l l1 t l2 E); [lia|exact HF|exact El]. }
    assert (b' = before /\ s' = s) as [-> ->].
    { rewrite Es in E. clear -E Elen. revert before E Elen. induction b' as [|x b' IH]; intros [|y before] E Elen; cbn in *; try discriminate Elen.
      - injection E as -> _. auto.
      - injection E as -> E. injection Elen as Elen. destruct (IH before E Elen) as [-> ->]. auto. }
    destruct (in_names_dec (ps_name s) (h_names h)) as [Hin|Hin]; [left; apply HR; exact Hin|right].
    destruct (HL1 Hin) as (new & x & l' & En & Ex & HF' & _ & Hready).
    assert (l' = l) as -> by (apply (formed_unique _ _ _ HF' HF)).
    assert (RightNames (fr_reactants (sp_reaction x)) l) as Hx.
    { apply (HAR s x l Hs); [|exact Ex|exact HF]. rewrite En2, En. apply in_app_iff. left. apply in_app_iff. right. apply in_app_iff. right. left. reflexivity. }
    assert (T : forall n, Reached inst (map fst l1 ++ h_names h) n -> Reached inst (map ps_name before ++ map fst l1) n).
    { intros n. apply reached_trans. intros y Hy. apply in_app_iff in Hy as [Hy|Hy].
      - apply reached_here. apply in_app_iff. right. exact Hy.
      - apply HR in Hy. revert Hy. apply reached_incl. apply incl_appl, incl_refl. }
    destruct (Hready Hx l1 t l2 El) as [H|H]; [left; apply T; exact H|right]. intros q lq Hq Eq HFq n c Hn. apply T. apply (H q lq n c Hq Eq HFq Hn).
Qed.

Lemma phases_loaded : forall todo h, incl todo (in_phases inst) -> Inv water traversal inst W (items inst) h -> incl (map ps_name (in_s inst)) (h_names h) ->
  exists h', foldM (addSpecies water traversal inst (S (S (length (in_s inst))))) h (map (entryOfPhase traversal) todo) = Ok h' /\
    Inv water traversal inst W (items inst) h' /\ (exists new, h_species h' = h_species h ++ new) /\ incl (map pp_name todo) (h_names h') /\
    (forall n, In n (h_names h') -> In n (h_names h) \/ In n (map pp_name todo)).
Proof.
  destruct (rank_exists inst WF) as (rank & Hrank & Hlen).
  induction todo as [|p todo IH]; intros h Ht HI Hs.
  - exists h. split; [reflexivity|]. split; [exact HI|]. split; [exists []; rewrite app_nil_r; reflexivity|]. split; [intros n []|auto].
  - assert (Hp : In (ItPhase p) (items inst)).
    { apply in_app_iff. right. apply in_map. apply Ht. left. reflexivity. }
    destruct (add_spec water traversal trav inst WF W Wmono (items inst)) with (rank := rank) (fuel := S (S (length (in_s inst)))) (it := ItPhase p) (h := h)
      as (h1 & E1 & HA); auto.
    { apply incl_refl. }
    { apply incl_appl, incl_refl. }
    { lia. }
    { intros l n c _ _. pose proof (Hlen n). lia. }
    { intros w l l1 t l2 HF El N' HC Hi Hl1. left. apply Hi, Hs.
      destruct (wf_reactions WF _ Hp) as (l' & HF' & Hl'). rewrite (formed_unique _ _ _ HF' HF) in Hl'.
      apply Hl'. rewrite El, map_app. apply in_app_iff. right. left. reflexivity. }
    destruct HA as [HI1 (new1 & En1) Hin1 HR1 HL1 HH1]. cbn [item_name] in *.
    assert (Hinc1 : incl (h_names h) (h_names h1)).
    { rewrite (inv_names _ _ _ _ _ _ HI), (inv_names _ _ _ _ _ _ HI1), En1, map_app. apply incl_appl, incl_refl. }
    assert (Hnew : forall n, In n (h_names h1) -> In n (h_names h) \/ n = pp_name p).
    { destruct (in_names_dec (pp_name p) (h_names h)) as [Hin|Hin]; [rewrite (HH1 Hin); auto|].
      destruct (HL1 Hin) as (new & x & l & En & Ex & HF & Hiff & _).
      assert (new = []) as ->.
      { apply Hiff. destruct (wf_reactions WF _ Hp) as (l' & HF' & Hl'). rewrite (formed_unique _ _ _ HF' HF) in Hl'. intros n Hn. apply Hs, Hl', Hn. }
      intros n Hn. rewrite (inv_names _ _ _ _ _ _ HI1), En, map_app in Hn. apply in_app_iff in Hn as [Hn|[<-|[]]].
      - left. rewrite (inv_names _ _ _ _ _ _ HI). exact Hn.
      - right. exact Ex. }
    destruct (IH h1) as (h2 & E2 & HI2 & (new2 & En2) & Hall & Hn2); auto.
    { intros x Hx. apply Ht. right. exact Hx. }
    { intros n Hn. apply Hinc1, Hs, Hn. }
    exists h2. cbn [map foldM]. change (entryOfPhase traversal p) with (entry water traversal (ItPhase p)) at 1. rewrite E1. cbn [bind].
    split; [exact E2|]. split; [exact HI2|]. split; [exists (new1 ++ new2); rewrite En2, En1, app_assoc; reflexivity|]. split.
    + intros n [<-|Hn]; [|apply Hall; exact Hn]. rewrite (inv_names _ _ _ _ _ _ HI2), En2, map_app. apply in_app_iff. left.
      rewrite <- (inv_names _ _ _ _ _ _ HI1). exact Hin1.
    + intros n Hn. destruct (Hn2 n Hn) as [H|H]; [|right; right; exact H]. destruct (Hnew n H) as [H'| ->]; [left; exact H'|right; left; reflexivity].
Qed.

Lemma foldM_app {A B} (f : A -> B -> outcome A) a l l' : foldM f a (l ++ l') = bind (foldM f a l) (fun a' => foldM f a' l').
Proof.
  revert a; induction l as [|b l IH]; intros a; [reflexivity|]. cbn. destruct (f a b); cbn; auto.
Qed.

Record Loaded (L : list Sp) : Prop := {
  lo_nodup : NoDup (map sp_name L);
  lo_names : forall n, In n (map sp_name L) <-> In n (map item_name (items inst));
  lo_species : forall s, In s (in_s inst) -> exists x, In x L /\ Made water traversal inst W L (ItSpecies s) x;
  lo_phases : forall p, In p (in_phases inst) -> ~ In (pp_name p) (map ps_name (in_s inst)) ->
    exists x, In x L /\ Made water traversal inst W L (ItPhase p) x;
  lo_right : AllRight L -> Prepared inst }.

Lemma made_item L it x : In it (items inst) -> Made water traversal inst W L it x -> sp_name x = item_name it.
Proof. intros _ (HI & _). apply (id_name HI). Qed.

Lemma load_all : exists L, phreeqcSpecies water traversal inst = Ok L /\ Loaded L.
Proof.
  unfold phreeqcSpecies, loadHelper. rewrite (elements_added inst WF). cbn [bind].
  destruct (species_loaded (in_s inst) [] (helper0 inst)) as (h1 & E1 & HI1 & (new1 & En1) & Hall1 & Hprep); auto.
  { constructor; cbn; [reflexivity|reflexivity|constructor|intros s []]. }
  { intros n []. }
  { intros n []. }
  destruct (phases_loaded (in_phases inst) h1) as (h2 & E2 & HI2 & (new2 & En2) & Hall2 & Hn2); auto.
  { apply incl_refl. }
  { apply (inv_scope (species_items inst)); [apply incl_appl, incl_refl|exact HI1]. }
  rewrite foldM_app, E1. cbn [bind]. rewrite E2. cbn [omap bind].
  exists (h_species h2). split; [reflexivity|].
  assert (Hnames : forall n, In n (map sp_name (h_species h2)) <-> In n (map item_name (items inst))).
  { intros n. unfold items, species_items, phase_items. rewrite map_app, !map_map. cbn [item_name]. change (fun x => ps_name x) with ps_name. change (fun x => pp_name x) with pp_name.
    rewrite in_app_iff. split.
    - intros Hn. apply in_map_iff in Hn as (x & <- & Hx). destruct (inv_made _ _ _ _ _ _ HI2 x Hx) as (it & Hit & (HId & _) & _).
      rewrite (id_name HId). apply in_app_iff in Hit as [Hit|Hit]; apply in_map_iff in Hit as (y & <- & Hy); [left|right]; cbn; apply in_map; exact Hy.
    - rewrite <- (inv_names _ _ _ _ _ _ HI2). intros [Hn|Hn]; [|apply Hall2; exact Hn].
      rewrite (inv_names _ _ _ _ _ _ HI2), En2, map_app. apply in_app_iff. left. rewrite <- (inv_names _ _ _ _ _ _ HI1). apply Hall1, Hn. }
  constructor.
  - rewrite <- (inv_names _ _ _ _ _ _ HI2). apply (inv_nodup _ _ _ _ _ _ HI2).
  - exact Hnames.
  - intros s Hs. assert (In (ps_name s) (map sp_name (h_species h2))) as Hn.
    { apply Hnames. apply in_map_iff. exists (ItSpecies s). split; [reflexivity|]. apply in_app_iff. left. apply in_map. exact Hs. }
    apply in_map_iff in Hn as (x & Ex & Hx). exists x. split; [exact Hx|].
    destruct (inv_made _ _ _ _ _ _ HI2 x Hx) as (it & Hit & HM & Hown). pose proof (made_item _ _ _ Hit HM) as En.
    assert (In it (species_items inst)) as Hsp. { apply Hown. rewrite <- En, Ex. apply in_map. exact Hs. }
    apply in_map_iff in Hsp as (s' & <- & Hs'). assert (s' = s) as -> by (apply (species_unique inst WF); auto; cbn in En; congruence). exact HM.
  - intros p Hp Hno. assert (In (pp_name p) (map sp_name (h_species h2))) as Hn.
    { apply Hnames. apply in_map_iff. exists (ItPhase p). split; [reflexivity|]. apply in_app_iff. right. apply in_map. exact Hp. }
    apply in_map_iff in Hn as (x & Ex & Hx). exists x. split; [exact Hx|].
    destruct (inv_made _ _ _ _ _ _ HI2 x Hx) as (it & Hit & HM & Hown). pose proof (made_item _ _ _ Hit HM) as En.
    apply in_app_iff in Hit as [Hit|Hit]; apply in_map_iff in Hit as (y & <- & Hy); cbn in En.
    + destruct Hno. rewrite <- Ex, En. apply in_map. exact Hy.
    + assert (y = p) as ->; [|exact HM]. clear -WF Hy Hp Ex En. pose proof (wf_phases WF) as ND. rewrite Ex in En. revert Hy Hp ND.
      generalize (in_phases inst) as L. induction L as [|z L IH]; [intros []|]. intros Hy Hp ND. cbn in ND. inversion ND as [|a b Hz ND']; subst.
      destruct Hy as [->|Hy]; destruct Hp as [->|Hp]; auto.
      * destruct Hz. rewrite <- En. apply in_map. exact Hp.
      * destruct Hz. rewrite En. apply in_map. exact Hy.
  - intros HAR before s after l l1 t l2 Es HF El. apply (Hprep) with (after := after) (l := l) (l2 := l2); auto; [|cbn; lia].
    intros s' x l' Hs' Hx. apply HAR; [exact Hs'|]. rewrite En2. apply in_app_iff. left. exact Hx.
Qed.
End Load.
