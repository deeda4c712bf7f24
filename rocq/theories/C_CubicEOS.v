(* C51, C52, C90-C92: cubic equations of state. *)
From Coq Require Import Reals List Bool Lra Lia.
From Coquelicot Require Import Coquelicot.
Import ListNotations.
From Verif Require Import Base M_Roots C_Roots M_CubicEOS P_Helmholtz P_CubicEOS.
Local Open Scope R_scope.

(* ---- What the statements are about ---- *)
(* A quantity of the result of the first evaluation with an equation of state. *)
Definition value (single : R -> R -> R -> R -> outcome FluidType) (e : EOS) (f : Residual -> R) (T P : R) (x : nat -> R) : R :=
  match compute single e fresh T P x with Ok r => f r | _ => 0 end.
Definition eos_beta (e : EOS) (T P : R) (x : nat -> R) : R := P * bmix e x / (gasR * T).
Definition eos_q (e : EOS) (T : R) (x : nat -> R) : R := amix e T x / (bmix e x * gasR * T).
(* The phase is identified as the one for which the equation of state was made. *)
Definition accepts (single : R -> R -> R -> R -> outcome FluidType) (e : EOS) (T P : R) (x : nat -> R) : Prop :=
  let ep := epsilon_ (model e) in let sg := sigma_ (model e) in let beta := eos_beta e T P x in let q := eos_q e T x in
  bind (cardano (cA ep sg beta q) (cB ep sg beta q) (cC ep sg beta q)) (fun r =>
  bind (selectRoot (fluidtype e) (realRoots r)) (fun Z => identify single e T P (amix e T x) (bmix e x) (realRoots r) Z)) = Ok (fluidtype e).
(* The discriminant of the cubic is not within the tolerance of a multiple root. *)
Definition simple_roots (e : EOS) (T P : R) (x : nat -> R) : Prop :=
  eps < Rabs (disc (epsilon_ (model e)) (sigma_ (model e)) (eos_beta e T P x) (eos_q e T x)).
(* Positive conditions, mole fractions that add to one, and nothing divided by zero. *)
Definition mixture (e : EOS) (T P : R) (x : nat -> R) : Prop :=
  0 < T /\ 0 < P /\ critical_positive e /\ (forall k, (k < nspecies e)%nat -> 0 <= x k) /\ Sum (nspecies e) x = 1 /\
  (forall k, (k < nspecies e)%nat -> 0 < a_ e T k) /\ amix e T x <> 0.
(* The molar volume of the first result exceeds the co-volume: the logarithm in the Gibbs energy has an argument that is positive. *)
Definition above_covolume single (e : EOS) (T P : R) (x : nat -> R) : Prop := bmix e x < value single e Vres T P x.

Lemma ep_gt m : -1 < epsilon_ m. Proof. destruct m; cbn; lra. Qed.
Lemma sg_gt m : -1 < sigma_ m. Proof. destruct m; cbn; lra. Qed.
Lemma not_all_nonpositive n x : Sum n x = 1 -> all_nonpositive n x = false.
Proof.
  intros H. destruct (all_nonpositive n x) eqn:E; [exfalso|reflexivity].
  assert (Sum n x <= 0); [|lra]. clear H. induction n as [|n IH]; cbn in *; [lra|]. destruct (Rle_dec (x n) 0); [|discriminate]. specialize (IH E). lra.
Qed.
Definition Zsel (e : EOS) (T P : R) (x : nat -> R) : R := Zof (epsilon_ (model e)) (sigma_ (model e)) (fluidtype e) (beta_ e T P x) (q_ e T x).
Lemma compute_ok single e old T P x : Sum (nspecies e) x = 1 -> simple_roots e T P x -> accepts single e T P x ->
  compute single e old T P x = Ok (residuals e old T P x (Zsel e T P x)).
Proof.
  intros H1 HD HA. unfold compute. rewrite (not_all_nonpositive _ _ H1). unfold accepts in HA. cbn zeta in *. unfold simple_roots, disc in HD.
  change (eos_beta e T P x) with (beta_ e T P x) in *. change (eos_q e T x) with (q_ e T x) in *.
  set (A := cA _ _ _ _) in *. set (B := cB _ _ _ _) in *. set (C := cC _ _ _ _) in *.
  pose proof (root_ok (fluidtype e) A B C HD) as K. destruct (cardano A B C) as [r| |]; cbn [bind] in *; try discriminate.
  rewrite K in *. cbn [bind] in *. rewrite HA. cbn [bind].
  assert (fluid_eqb (fluidtype e) (fluidtype e) = true) as -> by (destruct (fluidtype e); reflexivity). reflexivity.
Qed.
Lemma value_ok single e f T P x : Sum (nspecies e) x = 1 -> simple_roots e T P x -> accepts single e T P x ->
  value single e f T P x = f (residuals e fresh T P x (Zsel e T P x)).
Proof. intros H1 H2 H3. unfold value. rewrite (compute_ok single e fresh T P x H1 H2 H3). reflexivity. Qed.
Lemma accepts_none single e T P x : method e = NoMethod -> simple_roots e T P x -> accepts single e T P x.
Proof.
  intros HM HD. unfold accepts. cbn zeta. unfold simple_roots, disc in HD.
  pose proof (root_ok (fluidtype e) _ _ _ HD) as K. destruct (cardano _ _ _) as [r| |]; cbn [bind] in *; try discriminate. rewrite K. cbn [bind]. unfold identify. rewrite HM. reflexivity.
Qed.
Lemma bmix_pos e T P x : mixture e T P x -> 0 < bmix e x.
Proof.
  intros (HT & HP & HC & Hx & H1 & _ & _). unfold bmix.
  assert (exists k, (k < nspecies e)%nat /\ 0 < x k) as (k & Hk & Hp).
  { clear - H1. set (n := nspecies e) in *. assert (0 < Sum n x) as H by lra. clear H1. induction n as [|n IH]; cbn in H; [lra|]. destruct (Rlt_le_dec 0 (x n)); [exists n; split; [lia|assumption]|]. destruct IH as (k & ? & ?); [lra|]. exists k. split; [lia|assumption]. }
  apply (Sum_pos _ _ k); [|exact Hk|].
  - intros i Hi. apply Rmult_le_pos; [apply Hx, Hi|]. apply Rlt_le. apply (b_pos e i HC Hi).
  - apply Rmult_lt_0_compat; [exact Hp|]. apply (b_pos e k HC Hk).
Qed.
Lemma value_V single e T P x : Sum (nspecies e) x = 1 -> simple_roots e T P x -> accepts single e T P x -> value single e Vres T P x = Zsel e T P x * (gasR * T / P).
Proof. intros H1 H2 H3. rewrite value_ok by assumption. cbn. ring. Qed.
Lemma physical_of single e T P x : mixture e T P x -> simple_roots e T P x -> accepts single e T P x -> above_covolume single e T P x ->
  physical (epsilon_ (model e)) (sigma_ (model e)) (beta_ e T P x) (Zsel e T P x).
Proof.
  intros HM HD HA HV. pose proof (bmix_pos e T P x HM) as Hb. destruct HM as (HT & HP & HC & Hx & H1 & _ & _). unfold above_covolume in HV. rewrite value_V in HV by assumption.
  pose proof gasR_pos as G. assert (0 < gasR * T) by (apply Rmult_lt_0_compat; lra).
  assert (B0 : 0 < beta_ e T P x) by (apply Rdiv_lt_0_compat; [apply Rmult_lt_0_compat; lra|assumption]).
  assert (BZ : beta_ e T P x < Zsel e T P x).
  { apply Rmult_lt_reg_r with (gasR * T / P); [apply Rdiv_lt_0_compat; lra|]. eapply Rle_lt_trans; [|exact HV]. right. unfold beta_. field. split; lra. }
  pose proof (ep_gt (model e)). pose proof (sg_gt (model e)). repeat split; [exact B0|exact BZ| |]; nra.
Qed.
Lemma Zsel_root e T P x : simple_roots e T P x -> let ep := epsilon_ (model e) in let sg := sigma_ (model e) in
  realCubic (cA ep sg (beta_ e T P x) (q_ e T x)) (cB ep sg (beta_ e T P x) (q_ e T x)) (cC ep sg (beta_ e T P x) (q_ e T x)) (Zsel e T P x) = 0 /\
  0 < slope (cA ep sg (beta_ e T P x) (q_ e T x)) (cB ep sg (beta_ e T P x) (q_ e T x)) (Zsel e T P x).
Proof. intros HD. cbn zeta. split; [apply root_is_root; exact HD|apply root_simple; exact HD]. Qed.
(* The roots stay simple near a point of a curve. *)
Lemma simple_near ep sg (beta q : R -> R) s b' q' : is_derive beta s b' -> is_derive q s q' -> eps < Rabs (disc ep sg (beta s) (q s)) ->
  locally s (fun t => eps < Rabs (disc ep sg (beta t) (q t))).
Proof.
  intros Hb Hq HD. assert (Cb : continuous beta s) by (apply (ex_derive_continuous beta); eexists; exact Hb).
  assert (Cq : continuous q s) by (apply (ex_derive_continuous q); eexists; exact Hq).
  apply (disc_near (fun t => cA ep sg (beta t) (q t)) (fun t => cB ep sg (beta t) (q t)) (fun t => cC ep sg (beta t) (q t)) s).
  - unfold cA. apply c_sub; [apply c_mul; [apply c_const|exact Cb]|apply c_const].
  - unfold cB. apply c_sub; [apply c_mul; [apply c_mul; [apply c_const|exact Cb]|exact Cb]|apply c_mul; [apply c_sub; [apply c_const|exact Cq]|exact Cb]].
  - unfold cC. apply c_sub; [apply c_mul; [apply c_mul; [apply c_mul; [apply c_const|exact Cb]|exact Cb]|exact Cb]|apply c_mul; [apply c_mul; [apply c_add; [apply c_const|exact Cq]|exact Cb]|exact Cb]].
  - exact HD.
Qed.

(* ---- C52 ---- *)
Theorem C52_alpha type w Tc T : 0 < Tc -> 0 < T ->
  is_derive (fun t => al (alphafn type (t * (1 / Tc)) (1 / Tc) w)) T (alT (alphafn type (T * (1 / Tc)) (1 / Tc) w)) /\
  is_derive (fun t => alT (alphafn type (t * (1 / Tc)) (1 / Tc) w)) T (alTT (alphafn type (T * (1 / Tc)) (1 / Tc) w)).
Proof. apply d_alpha. Qed.
Print Assumptions C52_alpha.
(* Peng and Robinson (1976) up to an acentric factor of 0.491, Robinson and Peng (1978) beyond it; the alpha
   function is one at the critical temperature and the two formulas differ at the border. *)
Definition kappa76 (w : R) : R := 0.37464 + 1.54226 * w - 0.26992 * w ^ 2.
Definition kappa78 (w : R) : R := 0.379642 + 1.48503 * w - 0.164423 * w ^ 2 + 0.016666 * w ^ 3.
Theorem C52_peng_robinson w Tr TrT : al (alphafn PengRobinson Tr TrT w) = (1 + (if Rle_dec w 0.491 then kappa76 w else kappa78 w) * (1 - sqrt Tr)) ^ 2.
Proof.
  cbn [alphafn]. unfold alphaPR, alpha_m. cbn [al]. unfold kappa76, kappa78.
  destruct (Rle_dec w 0.491); match goal with |- (1 + ?m * _) * _ = (1 + ?k * _) ^ 2 => replace m with k by lra end; ring.
Qed.
Print Assumptions C52_peng_robinson.
Theorem C52_border : kappa76 0.491 < kappa78 0.491. Proof. unfold kappa76, kappa78. lra. Qed.
Theorem C52_consistent single e T P x : mixture e T P x -> interaction_consistent e -> simple_roots e T P x -> above_covolume single e T P x ->
  locally T (fun t => accepts single e t P x) ->
  is_derive (fun t => value single e Gres t P x / (gasR * t)) T (- value single e Hres T P x / (gasR * T ^ 2)) /\
  is_derive (fun t => value single e Hres t P x) T (value single e Cpres T P x) /\
  Sum (nspecies e) (fun k => x k * value single e (fun r => ln_phi r k) T P x) = value single e Gres T P x / (gasR * T).
Proof.
  intros HM HI HD HV HL. pose proof (locally_singleton _ _ HL) as HA. cbv beta in HA.
  pose proof (physical_of single e T P x HM HD HA HV) as HP. pose proof (bmix_pos e T P x HM) as Hb.
  destruct (Zsel_root e T P x HD) as [HR HS]. pose proof HM as (HT & HPp & HC & Hx & H1 & Ha & Hm). pose proof gasR_pos as G.
  destruct (d_q e HC HI T HT Ha x Hm ltac:(lra)) as [D1 D2]. pose proof (d_beta e T HT P x) as DB.
  pose proof (d_Zof _ _ (fluidtype e) _ _ T _ _ DB D1 HD) as DZ.
  assert (NR : locally T (fun t => simple_roots e t P x)) by (apply (simple_near _ _ (fun t => beta_ e t P x) (fun t => q_ e t x) T _ _ DB D1 HD)).
  assert (NT : locally T (fun t => 0 < t)) by (apply (open_gt 0 T HT)).
  set (ep := epsilon_ (model e)) in *. set (sg := sigma_ (model e)) in *.
  pose proof (d_gred ep sg (fun t => beta_ e t P x) (fun t => q_ e t x) (fun t => Zsel e t P x) T _ _ _ DB D1 DZ HP HR) as DG.
  pose proof (d_intI ep sg (fun t => beta_ e t P x) (fun t => Zsel e t P x) T _ _ DB DZ HP) as DI.
  split; [|split].
  - apply (is_derive_ext_loc (fun t => gred ep sg (beta_ e t P x) (q_ e t x) (Zsel e t P x))).
    + eapply filter_imp; [|exact (filter_and _ _ HL (filter_and _ _ NR NT))]. intros t (A & B & C). rewrite value_ok by assumption. cbn. fold ep sg. unfold gred.
      match goal with |- ?l = ?r => change (@eq R l r) end. field. split; lra.
    + eapply d_val; [exact DG|]. cbv beta. rewrite value_ok by assumption. cbn. fold ep sg. destruct HP as (P0 & _). field. repeat split; lra.
  - apply (is_derive_ext_loc (fun t => gasR * t * (Zsel e t P x - 1 + t * qT_ e t x * intI ep sg (beta_ e t P x) (Zsel e t P x)))).
    + eapply filter_imp; [|exact (filter_and _ _ HL NR)]. intros t (A & B). rewrite value_ok by assumption. reflexivity.
    + eapply d_val; [apply d_mul; [apply d_mul; [apply d_const|apply d_id]|apply d_add; [apply d_sub; [exact DZ|apply d_const]|apply d_mul; [apply d_mul; [apply d_id|exact D2]|exact DI]]]|].
      cbv beta. rewrite value_ok by assumption. cbn [Cpres residuals]. fold ep sg. change (Zof ep sg (fluidtype e) (beta_ e T P x) (q_ e T x)) with (Zsel e T P x). field. lra.
  - rewrite value_ok by assumption. cbn [Gres residuals]. fold ep sg.
    transitivity (gred ep sg (beta_ e T P x) (q_ e T x) (Zsel e T P x)); [|unfold gred; field; lra].
    pose proof (weighted_lnPhi e T P x (Zsel e T P x) HC H1 Hm ltac:(lra) HP HR ltac:(fold ep sg; lra)) as W. fold ep sg in W. rewrite <- W.
    apply Sum_ext. intros k Hk. rewrite value_ok by assumption. reflexivity.
Qed.
Print Assumptions C52_consistent.

(* ---- C91: residual volume ---- *)
Definition C91_statement : Prop := forall single e T P x, mixture e T P x -> interaction_consistent e -> simple_roots e T P x -> above_covolume single e T P x ->
  locally P (fun p => accepts single e T p x) ->
  is_derive (fun p => value single e Gres T p x) P (value single e Vres T P x).
(* The first result has the molar volume in place of the residual volume. *)
Theorem C91_first_partial single e T P x : mixture e T P x -> simple_roots e T P x -> above_covolume single e T P x ->
  locally P (fun p => accepts single e T p x) ->
  is_derive (fun p => value single e Gres T p x) P (value single e Vres T P x - gasR * T / P) /\
  is_derive (fun p => value single e Vres T p x) P (value single e VresP T P x).
Proof.
  intros HM HD HV HL. pose proof (locally_singleton _ _ HL) as HA. cbv beta in HA.
  pose proof (physical_of single e T P x HM HD HA HV) as HP. destruct (Zsel_root e T P x HD) as [HR HS]. pose proof HM as (HT & HPp & HC & Hx & H1 & Ha & Hm). pose proof gasR_pos as G.
  pose proof (d_betaP e T HT P x HPp) as DB. pose proof (d_const (q_ e T x) P) as D1.
  pose proof (d_Zof _ _ (fluidtype e) (fun p => beta_ e T p x) (fun _ => q_ e T x) P _ _ DB D1 HD) as DZ.
  assert (NR : locally P (fun p => simple_roots e T p x)) by (apply (simple_near _ _ (fun p => beta_ e T p x) (fun _ => q_ e T x) P _ _ DB D1 HD)).
  set (ep := epsilon_ (model e)) in *. set (sg := sigma_ (model e)) in *.
  pose proof (d_gred ep sg (fun p => beta_ e T p x) (fun _ => q_ e T x) (fun p => Zsel e T p x) P _ _ _ DB D1 DZ HP HR) as DG.
  split.
  - apply (is_derive_ext_loc (fun p => gasR * T * gred ep sg (beta_ e T p x) (q_ e T x) (Zsel e T p x))).
    + eapply filter_imp; [|exact (filter_and _ _ HL NR)]. intros p (A & B). rewrite value_ok by assumption. reflexivity.
    + eapply d_val; [apply d_mul; [apply d_const|exact DG]|]. cbv beta. rewrite value_ok by assumption. cbn. fold ep sg. destruct HP as (P0 & _). field. repeat split; lra.
  - apply (is_derive_ext_loc (fun p => Zsel e T p x * (gasR * T / p))).
    + eapply filter_imp; [|exact (filter_and _ _ HL NR)]. intros p (A & B). rewrite value_V by assumption. reflexivity.
    + eapply d_val; [apply d_mul; [exact DZ|apply d_div; [apply d_const|apply d_id|lra]]|]. cbv beta. rewrite value_ok by assumption. cbn [VresP residuals fresh]. fold ep sg. change (Zof ep sg (fluidtype e) (beta_ e T P x) (q_ e T x)) with (Zsel e T P x). field. lra.
Qed.
Print Assumptions C91_first_partial.

(* ---- Witnesses ---- *)
Definition noresort : R -> R -> R -> R -> outcome FluidType := fun _ _ _ _ => Ok Vapor.
Definition w1 : EOS := mkEOS 1 (fun _ => 8) (fun _ => 1) (fun _ => 0) VanDerWaals Vapor None NoMethod.
Definition x1 : nat -> R := fun _ => 1.
(* Two species with the same attraction and different co-volumes, R and R/2. *)
Definition w2 : EOS := mkEOS 2 (fun k => match k with O => 8 | _ => 16 end) (fun k => match k with O => 1 | _ => 4 end) (fun _ => 0) VanDerWaals Vapor None NoMethod.
Definition x2 : nat -> R := fun _ => 1 / 2.
Lemma a_w1 T : a_ w1 T 0 = 27 * gasR * gasR.
Proof. unfold a_, factor, alpha_of. cbn. field. Qed.
Lemma a_w2 T k : (k < 2)%nat -> a_ w2 T k = 27 * gasR * gasR.
Proof. intros Hk. destruct k as [|[|k]]; [| |lia]; unfold a_, factor, alpha_of; cbn; field. Qed.
Lemma sqr_sqrt a : 0 < a -> sqrt (a * a) = a. Proof. intros. apply sqrt_square. lra. Qed.
Lemma a27_pos : 0 < 27 * gasR * gasR. Proof. pose proof gasR_pos. apply Rmult_lt_0_compat; [lra|assumption]. Qed.
Lemma amix_w1 T : amix w1 T x1 = 27 * gasR * gasR.
Proof. unfold amix, aij, r_, s_, ip. cbn [nspecies w1 Sum interaction ip_k]. rewrite a_w1, sqr_sqrt by apply a27_pos. unfold x1. ring. Qed.
Lemma amix_w2 T : amix w2 T x2 = 27 * gasR * gasR.
Proof. unfold amix, aij, r_, s_, ip. cbn [nspecies w2 Sum interaction ip_k]. rewrite !a_w2 by lia. rewrite sqr_sqrt by apply a27_pos. unfold x2. field. Qed.
Lemma bmix_w1 : bmix w1 x1 = gasR. Proof. unfold bmix, bbar, x1. cbn. field. Qed.
Lemma bmix_w2 : bmix w2 x2 = 3 / 4 * gasR. Proof. unfold bmix, bbar, x2. cbn. field. Qed.
Lemma beta_w1 : beta_ w1 27 27 x1 = 1. Proof. pose proof gasR_pos. unfold beta_. rewrite bmix_w1. field. lra. Qed.
Lemma q_w1 : q_ w1 27 x1 = 1. Proof. pose proof gasR_pos. unfold q_. rewrite bmix_w1, amix_w1. field. lra. Qed.
Lemma beta_w2 : beta_ w2 36 48 x2 = 1. Proof. pose proof gasR_pos. unfold beta_. rewrite bmix_w2. field. lra. Qed.
Lemma q_w2 : q_ w2 36 x2 = 1. Proof. pose proof gasR_pos. unfold q_. rewrite bmix_w2, amix_w2. field. lra. Qed.
Lemma eps_small : eps < / 10.
Proof. unfold eps. apply Rmult_lt_reg_r with (2 ^ 52); [apply pow_lt; lra|]. rewrite Rmult_assoc, Rinv_l by (apply pow_nonzero; lra). lra. Qed.
Lemma disc_11 : disc 0 0 1 1 = 621 / 729.
Proof. unfold disc, discriminant, realCubic, cA, cB, cC. field. Qed.
Lemma simple_w1 : simple_roots w1 27 27 x1.
Proof. unfold simple_roots. change (eos_beta w1 27 27 x1) with (beta_ w1 27 27 x1). change (eos_q w1 27 x1) with (q_ w1 27 x1). rewrite beta_w1, q_w1. cbn [model w1 epsilon_ sigma_]. rewrite disc_11, Rabs_pos_eq by lra. pose proof eps_small. lra. Qed.
Lemma simple_w2 : simple_roots w2 36 48 x2.
Proof. unfold simple_roots. change (eos_beta w2 36 48 x2) with (beta_ w2 36 48 x2). change (eos_q w2 36 x2) with (q_ w2 36 x2). rewrite beta_w2, q_w2. cbn [model w2 epsilon_ sigma_]. rewrite disc_11, Rabs_pos_eq by lra. pose proof eps_small. lra. Qed.
Lemma sum_w1 : Sum (nspecies w1) x1 = 1. Proof. unfold x1. cbn. ring. Qed.
Lemma sum_w2 : Sum (nspecies w2) x2 = 1. Proof. unfold x2. cbn. field. Qed.
Lemma mixture_w1 : mixture w1 27 27 x1.
Proof.
  pose proof a27_pos as A. split; [lra|]. split; [lra|]. split; [intros k _; cbn; lra|]. split; [intros k _; unfold x1; lra|]. split; [apply sum_w1|].
  split; [intros k Hk; cbn in Hk; destruct k; [rewrite a_w1; exact A|lia]|rewrite amix_w1; lra].
Qed.
Lemma mixture_w2 : mixture w2 36 48 x2.
Proof.
  pose proof a27_pos as A. split; [lra|]. split; [lra|]. split; [intros k _; destruct k; cbn; lra|]. split; [intros k _; unfold x2; lra|]. split; [apply sum_w2|].
  split; [intros k Hk; cbn in Hk; rewrite a_w2 by exact Hk; exact A|rewrite amix_w2; lra].
Qed.
Definition Zw : R := Zof 0 0 Vapor 1 1.
Lemma Zw_gt : 1 < Zw.
Proof. apply vapor_exceeds; try lra. rewrite disc_11, Rabs_pos_eq by lra. pose proof eps_small. lra. Qed.
Lemma Zsel_w1 : Zsel w1 27 27 x1 = Zw. Proof. unfold Zsel. rewrite beta_w1, q_w1. reflexivity. Qed.
Lemma Zsel_w2 : Zsel w2 36 48 x2 = Zw. Proof. unfold Zsel. rewrite beta_w2, q_w2. reflexivity. Qed.
Lemma V_w1 : value noresort w1 Vres 27 27 x1 = Zw * gasR.
Proof. rewrite value_V; [|apply sum_w1|apply simple_w1|apply accepts_none; [reflexivity|apply simple_w1]]. rewrite Zsel_w1. field. Qed.
Lemma V_w2 : value noresort w2 Vres 36 48 x2 = Zw * (3 / 4 * gasR).
Proof. rewrite value_V; [|apply sum_w2|apply simple_w2|apply accepts_none; [reflexivity|apply simple_w2]]. rewrite Zsel_w2. field. Qed.
Lemma above_w1 : above_covolume noresort w1 27 27 x1.
Proof. unfold above_covolume. rewrite V_w1, bmix_w1. pose proof Zw_gt. pose proof gasR_pos. nra. Qed.
Lemma above_w2 : above_covolume noresort w2 36 48 x2.
Proof. unfold above_covolume. rewrite V_w2, bmix_w2. pose proof Zw_gt. pose proof gasR_pos. nra. Qed.
Lemma near_T e T P x : method e = NoMethod -> mixture e T P x -> interaction_consistent e -> simple_roots e T P x -> locally T (fun t => accepts noresort e t P x).
Proof.
  intros HN HM HI HD. pose proof (bmix_pos e T P x HM) as Hb. pose proof HM as (HT & HPp & HC & Hx & H1 & Ha & Hm).
  destruct (d_q e HC HI T HT Ha x Hm ltac:(lra)) as [D1 D2]. pose proof (d_beta e T HT P x) as DB.
  eapply filter_imp; [|exact (simple_near _ _ (fun t => beta_ e t P x) (fun t => q_ e t x) T _ _ DB D1 HD)]. intros t Ht. apply accepts_none; [exact HN|exact Ht].
Qed.
Lemma near_P e T P x : method e = NoMethod -> mixture e T P x -> simple_roots e T P x -> locally P (fun p => accepts noresort e T p x).
Proof.
  intros HN HM HD. pose proof HM as (HT & HPp & HC & Hx & H1 & Ha & Hm).
  pose proof (d_betaP e T HT P x HPp) as DB. pose proof (d_const (q_ e T x) P) as D1.
  eapply filter_imp; [|exact (simple_near _ _ (fun p => beta_ e T p x) (fun _ => q_ e T x) P _ _ DB D1 HD)]. intros t Ht. apply accepts_none; [exact HN|exact Ht].
Qed.
Example C52_nonvacuous : mixture w2 36 48 x2 /\ interaction_consistent w2 /\ simple_roots w2 36 48 x2 /\ above_covolume noresort w2 36 48 x2 /\
  locally 36 (fun t => accepts noresort w2 t 48 x2).
Proof.
  assert (interaction_consistent w2) by (apply no_interaction; reflexivity).
  split; [apply mixture_w2|]. split; [exact H|]. split; [apply simple_w2|]. split; [apply above_w2|]. apply near_T; [reflexivity|apply mixture_w2|exact H|apply simple_w2].
Qed.

Theorem C91_refuted : ~ C91_statement.
Proof.
  intros H. assert (HI : interaction_consistent w1) by (apply no_interaction; reflexivity).
  assert (HL : locally 27 (fun p => accepts noresort w1 27 p x1)) by (apply near_P; [reflexivity|apply mixture_w1|apply simple_w1]).
  pose proof (H noresort w1 27 27 x1 mixture_w1 HI simple_w1 above_w1 HL) as D1.
  destruct (C91_first_partial noresort w1 27 27 x1 mixture_w1 simple_w1 above_w1 HL) as [D2 _].
  pose proof (eq_trans (eq_sym (is_derive_unique _ _ _ D1)) (is_derive_unique _ _ _ D2)) as E. pose proof gasR_pos. lra.
Qed.
Print Assumptions C91_refuted.
Example C91_nonvacuous : mixture w1 27 27 x1 /\ simple_roots w1 27 27 x1 /\ above_covolume noresort w1 27 27 x1 /\ locally 27 (fun p => accepts noresort w1 27 p x1).
Proof. split; [apply mixture_w1|]. split; [apply simple_w1|]. split; [apply above_w1|]. apply near_P; [reflexivity|apply mixture_w1|apply simple_w1]. Qed.
Theorem C91_temperature_partial single e T P x : mixture e T P x -> interaction_consistent e -> simple_roots e T P x -> above_covolume single e T P x ->
  locally T (fun t => accepts single e t P x) -> is_derive (fun t => value single e Vres t P x) T (value single e VresT T P x).
Proof.
  intros HM HI HD HV HL. pose proof (locally_singleton _ _ HL) as HA. cbv beta in HA. pose proof (bmix_pos e T P x HM) as Hb.
  pose proof HM as (HT & HPp & HC & Hx & H1 & Ha & Hm). pose proof gasR_pos as G.
  destruct (d_q e HC HI T HT Ha x Hm ltac:(lra)) as [D1 _]. pose proof (d_beta e T HT P x) as DB.
  pose proof (d_Zof _ _ (fluidtype e) _ _ T _ _ DB D1 HD) as DZ.
  assert (NR : locally T (fun t => simple_roots e t P x)) by (apply (simple_near _ _ (fun t => beta_ e t P x) (fun t => q_ e t x) T _ _ DB D1 HD)).
  apply (is_derive_ext_loc (fun t => Zsel e t P x * (gasR * t / P))).
  - eapply filter_imp; [|exact (filter_and _ _ HL NR)]. intros t (A & B). rewrite value_V by assumption. reflexivity.
  - eapply d_val; [apply d_mul; [exact DZ|apply d_div; [apply d_mul; [apply d_const|apply d_id]|apply d_const|lra]]|]. cbv beta. rewrite value_ok by assumption. cbn [VresT residuals fresh].
    change (Zof _ _ (fluidtype e) (beta_ e T P x) (q_ e T x)) with (Zsel e T P x). field. lra.
Qed.
Print Assumptions C91_temperature_partial.
(* The heat capacities differ as those of a fluid do, less the difference of an ideal gas. *)
Theorem C91_heat_capacities_partial single e T P x VT VP : mixture e T P x -> interaction_consistent e -> simple_roots e T P x -> above_covolume single e T P x ->
  locally T (fun t => accepts single e t P x) -> locally P (fun p => accepts single e T p x) ->
  is_derive (fun t => value single e Vres t P x) T VT -> is_derive (fun p => value single e Vres T p x) P VP ->
  value single e Cpres T P x - value single e Cvres T P x = - T * VT ^ 2 / VP - gasR.
Proof.
  intros HM HI HD HV HL HL2 DT DP. pose proof (locally_singleton _ _ HL) as HA. cbv beta in HA.
  pose proof (C91_temperature_partial single e T P x HM HI HD HV HL) as ET. destruct (C91_first_partial single e T P x HM HD HV HL2) as [_ EP].
  pose proof (eq_trans (eq_sym (is_derive_unique _ _ _ DT)) (is_derive_unique _ _ _ ET)) as E1.
  pose proof (eq_trans (eq_sym (is_derive_unique _ _ _ DP)) (is_derive_unique _ _ _ EP)) as E2. subst VT VP.
  pose proof HM as (_ & _ & _ & _ & H1 & _). rewrite !value_ok by assumption. cbn [Cpres Cvres VresT VresP residuals fresh]. unfold Rdiv. ring_simplify. rewrite !Rminus_0_r. ring.
Qed.
Print Assumptions C91_heat_capacities_partial.

(* ---- C90: fugacity coefficients are partial molar residual Gibbs energies ---- *)
(* Residual Gibbs energy over RT of a phase with the amounts m. *)
Definition total_Gibbs single (e : EOS) (T P : R) (m : nat -> R) : R :=
  Sum (nspecies e) m * (value single e Gres T P (fun i => m i / Sum (nspecies e) m) / (gasR * T)).
Definition with_amount (m : nat -> R) (k : nat) (v : R) : nat -> R := fun i => if Nat.eqb i k then v else m i.
Definition fracs (e : EOS) (m : nat -> R) : nat -> R := fun i => m i / Sum (nspecies e) m.
Definition symmetric (e : EOS) (T : R) : Prop := forall i j, (i < nspecies e)%nat -> (j < nspecies e)%nat -> aij e T i j = aij e T j i.
Definition C90_statement : Prop := forall single e T P m k, 0 < Sum (nspecies e) m -> (k < nspecies e)%nat -> mixture e T P (fracs e m) -> symmetric e T ->
  simple_roots e T P (fracs e m) -> above_covolume single e T P (fracs e m) -> locally (m k) (fun v => accepts single e T P (fracs e (with_amount m k v))) ->
  is_derive (fun v => total_Gibbs single e T P (with_amount m k v)) (m k) (value single e (fun r => ln_phi r k) T P (fracs e m)).
Lemma sum_fracs e m : Sum (nspecies e) m <> 0 -> Sum (nspecies e) (fracs e m) = 1.
Proof. intros H. unfold fracs. rewrite (Sum_ext _ _ (fun i => / Sum (nspecies e) m * m i)) by (intros; unfold Rdiv; ring). rewrite Sum_scal. field. exact H. Qed.
(* The derivative differs from the code's fugacity coefficient by the term with the co-volumes. *)
Theorem C90_deviation_partial single e T P m k : 0 < Sum (nspecies e) m -> (k < nspecies e)%nat -> mixture e T P (fracs e m) -> symmetric e T ->
  simple_roots e T P (fracs e m) -> above_covolume single e T P (fracs e m) -> locally (m k) (fun v => accepts single e T P (fracs e (with_amount m k v))) ->
  is_derive (fun v => total_Gibbs single e T P (with_amount m k v)) (m k)
    (value single e (fun r => ln_phi r k) T P (fracs e m) +
     (b_ e k / bmix e (fracs e m) - 1) * (P * value single e Vres T P (fracs e m) / (gasR * T) - 1)).
Proof.
  intros HN Hk HM HSy HD HV HL. set (x := fracs e m) in *. change (fracs e m) with (fractions e m) in x.
  assert (Ex : forall T' P', beta_ e T' P' (fracs e (with_amount m k (m k))) = beta_ e T' P' x /\ q_ e T' (fracs e (with_amount m k (m k))) = q_ e T' x).
  { intros T' P'. destruct (fractions_same e m k T' P') as (_ & _ & A & B). split; [exact A|exact B]. }
  assert (HA : accepts single e T P x).
  { pose proof (locally_singleton _ _ HL) as HA. cbv beta in HA. revert HA. unfold accepts. destruct (fractions_same e m k T P) as (A & B & C & D).
    change (eos_beta e T P) with (beta_ e T P). change (eos_q e T) with (q_ e T). change (fracs e (with_amount m k (m k))) with (fractions e (change m k (m k))). rewrite A, B, C, D. exact (fun H => H). }
  pose proof (physical_of single e T P x HM HD HA HV) as HP. destruct (Zsel_root e T P x HD) as [HR HS]. pose proof (bmix_pos e T P x HM) as Hb.
  pose proof HM as (HT & HPp & HC & Hx & H1 & Ha & Hm). pose proof gasR_pos as G.
  pose proof (d_beta_n e T P m k HT Hk HN ltac:(fold x; lra)) as DB. pose proof (d_q_n e T m k HSy HT Hk HN ltac:(fold x; lra) Hm) as DQ. fold x in DB, DQ.
  destruct (Ex T P) as [EB EQ]. change (fracs e (with_amount m k (m k))) with (fractions e (change m k (m k))) in EB, EQ.
  set (ep := epsilon_ (model e)) in *. set (sg := sigma_ (model e)) in *.
  assert (HD' : eps < Rabs (disc ep sg (beta_ e T P (fractions e (change m k (m k)))) (q_ e T (fractions e (change m k (m k)))))) by (rewrite EB, EQ; exact HD).
  pose proof (d_Zof ep sg (fluidtype e) (fun v => beta_ e T P (fractions e (change m k v))) (fun v => q_ e T (fractions e (change m k v))) (m k) _ _ DB DQ HD') as DZ.
  assert (NR : locally (m k) (fun v => simple_roots e T P (fractions e (change m k v)))) by (apply (simple_near ep sg (fun v => beta_ e T P (fractions e (change m k v))) (fun v => q_ e T (fractions e (change m k v))) (m k) _ _ DB DQ HD')).
  assert (EZ : Zof ep sg (fluidtype e) (beta_ e T P (fractions e (change m k (m k)))) (q_ e T (fractions e (change m k (m k)))) = Zsel e T P x) by (rewrite EB, EQ; reflexivity).
  assert (DG : is_derive (fun v => gred ep sg (beta_ e T P (fractions e (change m k v))) (q_ e T (fractions e (change m k v))) (Zsel e T P (fractions e (change m k v)))) (m k)
     ((Zsel e T P x - 1) * (beta_ e T P x * (b_ e k / bmix e x - 1) / Sum (nspecies e) m) / beta_ e T P x - intI ep sg (beta_ e T P x) (Zsel e T P x) * ((qk_ e T x k - q_ e T x) / Sum (nspecies e) m))).
  { eapply d_val; [apply (d_gred ep sg (fun v => beta_ e T P (fractions e (change m k v))) (fun v => q_ e T (fractions e (change m k v))) (fun v => Zsel e T P (fractions e (change m k v))) (m k) _ _ _ DB DQ DZ)|].
    - unfold Zsel. cbv beta. fold ep sg. rewrite EZ, EB. exact HP.
    - unfold Zsel. cbv beta. fold ep sg. rewrite EZ, EB, EQ. exact HR.
    - unfold Zsel at 1 2. cbv beta. fold ep sg. rewrite EZ, EB. reflexivity. }
  pose proof (d_total e m k Hk) as DN.
  assert (EN : Sum (nspecies e) (change m k (m k)) = Sum (nspecies e) m) by (apply Sum_ext; intros; apply change_same).
  assert (NN : locally (m k) (fun v => 0 < Sum (nspecies e) (change m k v))).
  { apply (c_gt (m k) (fun v => Sum (nspecies e) (change m k v)) 0); [apply (ex_derive_continuous (fun v => Sum (nspecies e) (change m k v))); eexists; exact DN|rewrite EN; exact HN]. }
  apply (is_derive_ext_loc (fun v => Sum (nspecies e) (change m k v) * gred ep sg (beta_ e T P (fractions e (change m k v))) (q_ e T (fractions e (change m k v))) (Zsel e T P (fractions e (change m k v))))).
  - eapply filter_imp; [|exact (filter_and _ _ HL (filter_and _ _ NR NN))]. intros v (A & B & C). unfold total_Gibbs. change (with_amount m k v) with (change m k v) in *.
    change (fun i => change m k v i / Sum (nspecies e) (change m k v)) with (fracs e (change m k v)). rewrite value_ok; [|apply sum_fracs; lra|exact B|exact A].
    cbn [Gres residuals]. fold ep sg. unfold gred. change (fractions e (change m k v)) with (fracs e (change m k v)). match goal with |- ?l = ?r => change (@eq R l r) end. field. split; lra.
  - eapply d_val; [apply d_mul; [exact DN|exact DG]|]. cbv beta. rewrite EN.
    assert (EG : gred ep sg (beta_ e T P (fractions e (change m k (m k)))) (q_ e T (fractions e (change m k (m k)))) (Zsel e T P (fractions e (change m k (m k)))) = gred ep sg (beta_ e T P x) (q_ e T x) (Zsel e T P x)).
    { unfold Zsel. fold ep sg. rewrite EB, EQ. reflexivity. }
    rewrite EG. rewrite value_V by assumption. rewrite value_ok by assumption. cbn [ln_phi residuals].
    assert (Bk : 0 < b_ e k) by (apply (b_pos e k HC Hk)).
    rewrite (lnPhi_closed e T P x (Zsel e T P x) k ltac:(lra) HP HR ltac:(fold ep sg; lra)). fold ep sg. unfold gred. destruct HP as (P0 & _). field. repeat split; lra.
Qed.
Print Assumptions C90_deviation_partial.
Theorem C90_equal_covolumes_partial single e T P m k : (forall i j, (i < nspecies e)%nat -> (j < nspecies e)%nat -> b_ e i = b_ e j) ->
  0 < Sum (nspecies e) m -> (k < nspecies e)%nat -> mixture e T P (fracs e m) -> symmetric e T ->
  simple_roots e T P (fracs e m) -> above_covolume single e T P (fracs e m) -> locally (m k) (fun v => accepts single e T P (fracs e (with_amount m k v))) ->
  is_derive (fun v => total_Gibbs single e T P (with_amount m k v)) (m k) (value single e (fun r => ln_phi r k) T P (fracs e m)).
Proof.
  intros HE HN Hk HM HSy HD HV HL. eapply d_val; [apply (C90_deviation_partial single e T P m k HN Hk HM HSy HD HV HL)|].
  pose proof (bmix_pos e T P _ HM) as Hb.
  assert (E : bmix e (fracs e m) = b_ e k).
  { unfold bmix. rewrite (Sum_ext _ _ (fun i => b_ e k * fracs e m i)); [rewrite Sum_scal, sum_fracs by lra; ring|]. intros i Hi. change (bbar e i) with (b_ e i). rewrite (HE i k Hi Hk). ring. }
  rewrite E in *. pose proof gasR_pos. destruct HM as (HT & _). field. repeat split; lra.
Qed.
Print Assumptions C90_equal_covolumes_partial.
Lemma near_n e T P m k : method e = NoMethod -> 0 < Sum (nspecies e) m -> (k < nspecies e)%nat -> mixture e T P (fracs e m) -> symmetric e T -> simple_roots e T P (fracs e m) ->
  locally (m k) (fun v => accepts noresort e T P (fracs e (with_amount m k v))).
Proof.
  intros HM0 HN Hk HM HSy HD. pose proof (bmix_pos e T P _ HM) as Hb. pose proof HM as (HT & HPp & HC & Hx & H1 & Ha & Hm).
  assert (Hb' : bmix e (fractions e m) <> 0) by (change (bmix e (fracs e m) <> 0); lra).
  pose proof (d_beta_n e T P m k HT Hk HN Hb') as DB. pose proof (d_q_n e T m k HSy HT Hk HN Hb' Hm) as DQ.
  destruct (fractions_same e m k T P) as (_ & _ & EB & EQ).
  eapply filter_imp; [|apply (simple_near (epsilon_ (model e)) (sigma_ (model e)) (fun v => beta_ e T P (fractions e (change m k v))) (fun v => q_ e T (fractions e (change m k v))) (m k) _ _ DB DQ)].
  - intros v Hv. apply accepts_none; [exact HM0|exact Hv].
  - rewrite EB, EQ. exact HD.
Qed.
Lemma fracs_w2 : fracs w2 x2 = x2.
Proof. apply FunctionalExtensionality.functional_extensionality. intros i. unfold fracs. rewrite sum_w2. field. Qed.
Lemma symmetric_w2 T : symmetric w2 T.
Proof. intros i j Hi Hj. unfold aij, r_, s_, ip. cbn [interaction w2 ip_k]. rewrite !a_w2 by assumption. reflexivity. Qed.
Example C90_nonvacuous : 0 < Sum (nspecies w2) x2 /\ mixture w2 36 48 (fracs w2 x2) /\ symmetric w2 36 /\ simple_roots w2 36 48 (fracs w2 x2) /\
  above_covolume noresort w2 36 48 (fracs w2 x2) /\ locally (x2 0%nat) (fun v => accepts noresort w2 36 48 (fracs w2 (with_amount x2 0 v))).
Proof.
  rewrite fracs_w2. split; [rewrite sum_w2; lra|]. split; [apply mixture_w2|]. split; [apply symmetric_w2|]. split; [apply simple_w2|]. split; [apply above_w2|].
  apply near_n; [reflexivity|rewrite sum_w2; lra|cbn; lia|rewrite fracs_w2; apply mixture_w2|apply symmetric_w2|rewrite fracs_w2; apply simple_w2].
Qed.
Theorem C90_refuted : ~ C90_statement.
Proof.
  intros H. destruct C90_nonvacuous as (A & B & C & D & E & F). assert (K : (0 < nspecies w2)%nat) by (cbn; lia).
  pose proof (H noresort w2 36 48 x2 0%nat A K B C D E F) as D1.
  pose proof (C90_deviation_partial noresort w2 36 48 x2 0%nat A K B C D E F) as D2.
  pose proof (eq_trans (eq_sym (is_derive_unique _ _ _ D1)) (is_derive_unique _ _ _ D2)) as X. rewrite fracs_w2, bmix_w2, V_w2 in X.
  assert (B0 : b_ w2 0 = gasR) by (unfold b_; cbn; field). rewrite B0 in X. pose proof gasR_pos as G. pose proof Zw_gt as Z.
  replace (gasR / (3 / 4 * gasR) - 1) with (1 / 3) in X by (field; lra). replace (48 * (Zw * (3 / 4 * gasR)) / (gasR * 36) - 1) with (Zw - 1) in X by (field; lra). lra.
Qed.
Print Assumptions C90_refuted.

(* ---- C92: the selected volume exceeds the co-volume ---- *)
Definition C92_statement : Prop := forall single e T P x, mixture e T P x -> simple_roots e T P x -> accepts single e T P x -> above_covolume single e T P x.
Lemma above_of_Z single e T P x : mixture e T P x -> simple_roots e T P x -> accepts single e T P x -> beta_ e T P x < Zsel e T P x -> above_covolume single e T P x.
Proof.
  intros HM HD HA HZ. pose proof HM as (HT & HPp & HC & Hx & H1 & _). pose proof gasR_pos. unfold above_covolume. rewrite value_V by assumption.
  apply Rle_lt_trans with (beta_ e T P x * (gasR * T / P)); [right; unfold beta_; field; split; lra|]. apply Rmult_lt_compat_r; [|exact HZ]. apply Rdiv_lt_0_compat; [apply Rmult_lt_0_compat; lra|lra].
Qed.
Lemma beta_pos e T P x : mixture e T P x -> 0 < beta_ e T P x.
Proof. intros HM. pose proof (bmix_pos e T P x HM). destruct HM as (HT & HPp & _). pose proof gasR_pos. apply Rdiv_lt_0_compat; apply Rmult_lt_0_compat; lra. Qed.
Theorem C92_vapor_partial single e T P x : fluidtype e = Vapor -> mixture e T P x -> simple_roots e T P x -> accepts single e T P x -> above_covolume single e T P x.
Proof.
  intros HV HM HD HA. apply above_of_Z; try assumption. unfold Zsel. rewrite HV. apply vapor_exceeds; [apply (beta_pos e T P x HM)|apply ep_gt|apply sg_gt|exact HD].
Qed.
Print Assumptions C92_vapor_partial.
(* Van der Waals fluids have no root at or below the co-volume. *)
Theorem C92_van_der_waals_partial single e T P x : model e = VanDerWaals -> 0 < amix e T x -> mixture e T P x -> simple_roots e T P x -> accepts single e T P x -> above_covolume single e T P x.
Proof.
  intros HV Ha HM HD HA. apply above_of_Z; try assumption. destruct (Zsel_root e T P x HD) as [HR _]. rewrite cubic_eq, HV in HR. cbn in HR.
  pose proof (beta_pos e T P x HM) as B. set (b := beta_ e T P x) in *. set (z := Zsel e T P x) in *.
  assert (Q : 0 < q_ e T x). { pose proof (bmix_pos e T P x HM). pose proof HM as (HT & _). pose proof gasR_pos. apply Rdiv_lt_0_compat; [exact Ha|]. apply Rmult_lt_0_compat; [apply Rmult_lt_0_compat|]; assumption. }
  set (q := q_ e T x) in *. destruct (Rlt_le_dec b z) as [|L]; [assumption|exfalso].
  assert (QB : 0 < q * b) by (apply Rmult_lt_0_compat; assumption). assert (Z2 : 0 <= z * z) by (apply Rle_0_sqr).
  assert (T1 : (z - 1 - b) * (z * z) <= 0) by nra. assert (T2 : q * b * (z - b) <= 0) by nra.
  assert (E1 : (z - 1 - b) * (z * z) = 0) by nra. assert (E2 : q * b * (z - b) = 0) by nra.
  apply Rmult_integral in E1. apply Rmult_integral in E2. destruct E2 as [|E2]; [lra|]. assert (z = b) by lra. destruct E1 as [|E1]; [lra|]. rewrite H in E1. nra.
Qed.
Print Assumptions C92_van_der_waals_partial.
(* A liquid far above its critical temperature with the Redlich-Kwong equation: the smallest root is negative. *)
Definition w3 : EOS := mkEOS 1 (fun _ => 1) (fun _ => 0.08664) (fun _ => 0) RedlichKwong Liquid None NoMethod.
Lemma a_w3 : a_ w3 100 0 = 10687 / 21660 * gasR * gasR.
Proof.
  unfold a_, factor, alpha_of. cbn [model w3 alphafn alphaRK al Psi_ Tcr Pcr omega].
  replace (100 * (1 / 1)) with (10 * 10) by field. rewrite sqrt_square by lra. replace (0.42748) with (42748 / 100000) by lra. replace (0.08664) with (8664 / 100000) by lra. field.
Qed.
Lemma a3_pos : 0 < 10687 / 21660 * gasR * gasR. Proof. pose proof gasR_pos. apply Rmult_lt_0_compat; [lra|assumption]. Qed.
Lemma amix_w3 : amix w3 100 x1 = 10687 / 21660 * gasR * gasR.
Proof. unfold amix, aij, r_, s_, ip. cbn [nspecies w3 Sum interaction ip_k]. rewrite a_w3, sqr_sqrt by apply a3_pos. unfold x1. ring. Qed.
Lemma bmix_w3 : bmix w3 x1 = gasR.
Proof. unfold bmix, bbar, x1. cbn [nspecies w3 Sum model Omega_ Tcr Pcr]. replace (0.08664) with (8664 / 100000) by lra. field. Qed.
Lemma beta_w3 : beta_ w3 100 100 x1 = 1. Proof. pose proof gasR_pos. unfold beta_. rewrite bmix_w3. field. lra. Qed.
Lemma q_w3 : q_ w3 100 x1 = 10687 / 2166000. Proof. pose proof gasR_pos. unfold q_. rewrite bmix_w3, amix_w3. field. lra. Qed.
Lemma simple_w3 : simple_roots w3 100 100 x1.
Proof.
  unfold simple_roots. change (eos_beta w3 100 100 x1) with (beta_ w3 100 100 x1). change (eos_q w3 100 x1) with (q_ w3 100 x1). rewrite beta_w3, q_w3. cbn [model w3 epsilon_ sigma_].
  assert (disc 0 1 1 (10687 / 2166000) < - 1) by (unfold disc, discriminant, realCubic, cA, cB, cC; lra).
  rewrite Rabs_left by lra. pose proof eps_small. lra.
Qed.
Lemma mixture_w3 : mixture w3 100 100 x1.
Proof.
  pose proof a3_pos as A. split; [lra|]. split; [lra|]. split; [intros k _; cbn; lra|]. split; [intros k _; unfold x1; lra|]. split; [unfold x1; cbn; ring|].
  split; [intros k Hk; cbn in Hk; destruct k; [rewrite a_w3; exact A|lia]|rewrite amix_w3; lra].
Qed.
Lemma negative_root : Zsel w3 100 100 x1 <= - (1 / 2).
Proof.
  unfold Zsel. rewrite beta_w3, q_w3. cbn [model w3 epsilon_ sigma_ fluidtype]. unfold Zof. set (A := cA _ _ _ _). set (B := cB _ _ _ _). set (C := cC _ _ _ _).
  assert (Cn : continuity (realCubic A B C)) by (unfold realCubic; reg).
  assert (P1 : realCubic A B C (-2) < 0) by (unfold realCubic, A, B, C, cA, cB, cC; lra).
  assert (P2 : 0 < realCubic A B C (- (1 / 2))) by (unfold realCubic, A, B, C, cA, cB, cC; lra).
  destruct (IVT_cor (realCubic A B C) (-2) (- (1 / 2)) Cn ltac:(lra)) as (z & Hz & Ez); [nra|].
  pose proof (root_extreme Liquid A B C z) as X. cbn in X. assert (K : eps < Rabs (discriminant A B C)).
  { pose proof simple_w3 as S. unfold simple_roots, disc in S. change (eos_beta w3 100 100 x1) with (beta_ w3 100 100 x1) in S. change (eos_q w3 100 x1) with (q_ w3 100 x1) in S. rewrite beta_w3, q_w3 in S. exact S. }
  specialize (X K Ez). lra.
Qed.
Theorem C92_refuted : ~ C92_statement.
Proof.
  intros H. assert (HA : accepts noresort w3 100 100 x1) by (apply accepts_none; [reflexivity|apply simple_w3]).
  pose proof (H noresort w3 100 100 x1 mixture_w3 simple_w3 HA) as V. unfold above_covolume in V. rewrite bmix_w3 in V.
  rewrite value_V in V; [|unfold x1; cbn; ring|apply simple_w3|exact HA]. pose proof negative_root. pose proof gasR_pos. replace (gasR * 100 / 100) with gasR in V by field. nra.
Qed.
Print Assumptions C92_refuted.
Example C92_nonvacuous : mixture w2 36 48 x2 /\ simple_roots w2 36 48 x2 /\ accepts noresort w2 36 48 x2 /\ 0 < amix w2 36 x2.
Proof. split; [apply mixture_w2|]. split; [apply simple_w2|]. split; [apply accepts_none; [reflexivity|apply simple_w2]|]. rewrite amix_w2. apply a27_pos. Qed.

(* ---- C51: histories ---- *)
(* The result of the call c after the calls of a history, with a new activity model. *)
Definition after single (e : EOS) (history : list (R * R * (nat -> R))) (c : R * R * (nat -> R)) : outcome Activity :=
  last (calls single e fresh (history ++ [c])) UB.
Definition same_activity (n : nat) (a b : outcome Activity) : Prop :=
  match a, b with
  | Ok a, Ok b => Vres (ac_res a) = Vres (ac_res b) /\ VresT (ac_res a) = VresT (ac_res b) /\ VresP (ac_res a) = VresP (ac_res b) /\ Gres (ac_res a) = Gres (ac_res b) /\
      Hres (ac_res a) = Hres (ac_res b) /\ Cpres (ac_res a) = Cpres (ac_res b) /\ Cvres (ac_res a) = Cvres (ac_res b) /\ forall k, (k < n)%nat -> ac_ln_a a k = ac_ln_a b k
  | Err, Err | UB, UB => True
  | _, _ => False
  end.
Definition C51_statement : Prop := forall single e h1 h2 c, same_activity (nspecies e) (after single e h1 c) (after single e h2 c).
Lemma calls_length single e l : forall res, length (calls single e res l) = length l.
Proof. induction l as [|[[T P] x] l IH]; intros; cbn; [reflexivity|]. destruct (compute single e res T P x); cbn; rewrite IH; reflexivity. Qed.
Lemma calls_last single e h T P x : forall res, exists old, last (calls single e res (h ++ [(T, P, x)])) UB = match compute single e old T P x with Ok r => Ok (activity r P x) | Err => Err | UB => UB end.
Proof.
  induction h as [|[[T' P'] x'] h IH]; intros res.
  - exists res. cbn. destruct (compute single e res T P x); reflexivity.
  - cbn [app calls]. assert (L : forall r o, last (o :: calls single e r (h ++ [(T, P, x)])) UB = last (calls single e r (h ++ [(T, P, x)])) UB).
    { intros r o. pose proof (calls_length single e (h ++ [(T, P, x)]) r) as Ln. rewrite app_length in Ln. cbn in Ln. destruct (calls single e r (h ++ [(T, P, x)])); [cbn in Ln; lia|reflexivity]. }
    destruct (compute single e res T' P' x') as [r| |]; rewrite L; apply IH.
Qed.
(* Everything but the residual volume depends on the conditions alone, where the phase is the expected one. *)
Theorem C51_energies_partial single e h1 h2 T P x : Sum (nspecies e) x = 1 -> simple_roots e T P x -> accepts single e T P x ->
  exists a b, after single e h1 (T, P, x) = Ok a /\ after single e h2 (T, P, x) = Ok b /\
    Gres (ac_res a) = Gres (ac_res b) /\ Hres (ac_res a) = Hres (ac_res b) /\ Cpres (ac_res a) = Cpres (ac_res b) /\ Cvres (ac_res a) = Cvres (ac_res b) /\
    forall k, ln_phi (ac_res a) k = ln_phi (ac_res b) k /\ ac_ln_a a k = ac_ln_a b k.
Proof.
  intros H1 HD HA. unfold after. destruct (calls_last single e h1 T P x fresh) as (o1 & E1). destruct (calls_last single e h2 T P x fresh) as (o2 & E2).
  rewrite (compute_ok single e o1 T P x H1 HD HA) in E1. rewrite (compute_ok single e o2 T P x H1 HD HA) in E2. rewrite E1, E2.
  eexists. eexists. split; [reflexivity|]. split; [reflexivity|]. cbn. repeat split.
Qed.
Print Assumptions C51_energies_partial.
Lemma after_w1 h : exists old, after noresort w1 h (27, 27, x1) = Ok (activity (residuals w1 old 27 27 x1 Zw) 27 x1).
Proof.
  unfold after. destruct (calls_last noresort w1 h 27 27 x1 fresh) as (o & E). exists o. rewrite E.
  rewrite (compute_ok noresort w1 o 27 27 x1 sum_w1 simple_w1 (accepts_none noresort w1 27 27 x1 eq_refl simple_w1)), Zsel_w1. reflexivity.
Qed.
Lemma compute_w1 old : compute noresort w1 old 27 27 x1 = Ok (residuals w1 old 27 27 x1 Zw).
Proof. rewrite (compute_ok noresort w1 old 27 27 x1 sum_w1 simple_w1 (accepts_none noresort w1 27 27 x1 eq_refl simple_w1)), Zsel_w1. reflexivity. Qed.
(* The second of two equal evaluations has a residual volume of zero. *)
Theorem C51_refuted : ~ C51_statement.
Proof.
  intros H. specialize (H noresort w1 [] [(27, 27, x1)] (27, 27, x1)). unfold after in H. cbn [app calls] in H. rewrite !compute_w1 in H.
  cbn [last same_activity activity ac_res Vres residuals] in H. destruct H as (H & _). cbn [fresh Vres] in H. pose proof Zw_gt. pose proof gasR_pos. replace (gasR * 27 / 27) with gasR in H by field. nra.
Qed.
Print Assumptions C51_refuted.
Lemma ln_lt_0_le Z : 1 < Z -> ln (Z - 1) <= Z - 2.
Proof. intros H. pose proof (exp_ineq1_le (ln (Z - 1))) as E. rewrite exp_ln in E by lra. lra. Qed.
(* An evaluation with no substance keeps the results of the evaluation before. *)
Theorem C51_stale_refuted : ~ (forall single e h1 h2 T P x, match after single e h1 (T, P, x), after single e h2 (T, P, x) with
  | Ok a, Ok b => Gres (ac_res a) = Gres (ac_res b) | Err, Err | UB, UB => True | _, _ => False end).
Proof.
  intros H. specialize (H noresort w1 [] [(27, 27, x1)] 27 27 (fun _ => 0)). unfold after in H. cbn [app calls] in H. rewrite compute_w1 in H.
  assert (E : forall old, compute noresort w1 old 27 27 (fun _ => 0) = Ok old). { intros old. unfold compute. cbn [nspecies w1 all_nonpositive]. destruct (Rle_dec 0 0); [reflexivity|lra]. }
  rewrite !E in H. cbn [last activity ac_res Gres fresh residuals] in H. rewrite beta_w1, q_w1 in H. cbn [model w1 epsilon_ sigma_] in H. unfold intI in H. destruct (Req_EM_T 0 0); [|contradiction].
  pose proof Zw_gt as Z. pose proof gasR_pos as G. pose proof (ln_lt_0_le Zw Z) as L. symmetry in H. apply Rmult_integral in H. destruct H as [H|H]; [lra|].
  assert (I : / Zw < 1) by (rewrite <- Rinv_1; apply Rinv_lt_contravar; lra). replace (1 * (1 / (Zw + 0 * 1))) with (/ Zw) in H by (field; lra). lra.
Qed.
Print Assumptions C51_stale_refuted.
Example C51_nonvacuous : Sum (nspecies w2) x2 = 1 /\ simple_roots w2 36 48 x2 /\ accepts noresort w2 36 48 x2.
Proof. split; [apply sum_w2|]. split; [apply simple_w2|]. apply accepts_none; [reflexivity|apply simple_w2]. Qed.
