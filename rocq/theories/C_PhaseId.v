(* C104: identification of the fluid phase of a cubic equation of state. *)
From Coq Require Import Reals List Bool Lra Lia.
From Coquelicot Require Import Coquelicot.
Import ListNotations.
From Verif Require Import Base M_Roots C_Roots M_CubicEOS M_PhaseId P_Helmholtz P_CubicEOS C_CubicEOS.
Local Open Scope R_scope.

(* ---- Reals ---- *)
Lemma minOf_lt P l : forall m, P < minOf m l <-> P < m /\ forall y, In y l -> P < y.
Proof.
  induction l as [|a l IH]; intros m; cbn [minOf].
  - split; [intros H; split; [exact H|intros y []]|intros [H _]; exact H].
  - rewrite IH. destruct (Rlt_dec a m) as [L|L]; (split; [intros [H1 H2]; split; [lra|intros y [<-|I]; [lra|apply H2, I]]|intros [H1 H2]; split; [|intros y I; apply H2; right; exact I]]).
    + apply H2. left. reflexivity.
    + exact H1.
Qed.
Lemma maxOf_lt P l : forall m, maxOf m l < P <-> m < P /\ forall y, In y l -> y < P.
Proof.
  induction l as [|a l IH]; intros m; cbn [maxOf].
  - split; [intros H; split; [exact H|intros y []]|intros [H _]; exact H].
  - rewrite IH. destruct (Rlt_dec m a) as [L|L]; (split; [intros [H1 H2]; split; [lra|intros y [<-|I]; [lra|apply H2, I]]|intros [H1 H2]; split; [|intros y I; apply H2; right; exact I]]).
    + apply H2. left. reflexivity.
    + exact H1.
Qed.

(* ---- The pressure as a function of the volume ---- *)
Section Pressure.
Variables (RT am b ep sg P : R).
Hypothesis (HRT : 0 < RT) (Hb : 0 < b) (He : -1 < ep) (Hs : -1 < sg) (HP : 0 < P).
Definition press (V : R) : R := RT / (V - b) - am / ((V + ep * b) * (V + sg * b)).
Definition quart (V : R) : R := RT * (V + ep * b) ^ 2 * (V + sg * b) ^ 2 - am * (2 * V + ep * b + sg * b) * (V - b) ^ 2.
Lemma above V : b < V -> 0 < V - b /\ 0 < V + ep * b /\ 0 < V + sg * b.
Proof. intros. repeat split; nra. Qed.
Lemma d_press V : b < V -> is_derive press V (- quart V / ((V - b) * ((V + ep * b) * (V + sg * b))) ^ 2).
Proof.
  intros H. destruct (above V H) as (A1 & A2 & A3). unfold press. eapply d_val.
  - apply d_sub; [apply d_div; [apply d_const|apply d_sub; [apply d_id|apply d_const]|lra]|apply d_div; [apply d_const|apply d_mul; apply d_add; try apply d_id; apply d_const|]].
    apply Rmult_integral_contrapositive_currified; lra.
  - cbv beta. unfold quart. field. repeat split; lra.
Qed.
(* Between two spinodal volumes the pressure increases. *)
Lemma quart_between V1 V V2 : b < V1 -> V1 < V < V2 -> quart V1 = 0 -> quart V2 = 0 -> quart V < 0.
Proof.
  intros H1 [H2 H3] Q1 Q2. set (c1 := b + ep * b). set (c2 := b + sg * b). assert (C1 : 0 < c1) by (unfold c1; nra). assert (C2 : 0 < c2) by (unfold c2; nra).
  set (u1 := V1 - b). set (u := V - b). set (u2 := V2 - b). assert (U1 : 0 < u1) by (unfold u1; lra). assert (U12 : u1 < u) by (unfold u1, u; lra). assert (U23 : u < u2) by (unfold u2, u; lra).
  set (f := fun u => RT * u ^ 2 + (2 * RT * (c1 + c2) - 2 * am) * u + (RT * (c1 ^ 2 + 4 * c1 * c2 + c2 ^ 2) - am * (c1 + c2)) + 2 * RT * c1 * c2 * (c1 + c2) / u + RT * c1 ^ 2 * c2 ^ 2 / u ^ 2).
  assert (E : forall V, b < V -> quart V = (V - b) ^ 2 * f (V - b)) by (intros W HW; unfold f, quart, c1, c2; field; lra).
  assert (Z1 : f u1 = 0). { rewrite E in Q1 by lra. fold u1 in Q1. apply Rmult_integral in Q1 as [K|K]; [|exact K]. apply pow_nonzero with (n := 2%nat) in K; [contradiction|lra]. }
  assert (Z2 : f u2 = 0). { rewrite E in Q2 by lra. fold u2 in Q2. apply Rmult_integral in Q2 as [K|K]; [|exact K]. apply pow_nonzero with (n := 2%nat) in K; [contradiction|lra]. }
  rewrite E by lra. fold u. assert (F : f u < 0); [|assert (0 < u ^ 2) by (apply pow_lt; lra); nra].
  assert (I : f u = ((u2 - u) * f u1 + (u - u1) * f u2) / (u2 - u1)
    - (u - u1) * (u2 - u) * (RT + 2 * RT * c1 * c2 * (c1 + c2) / (u * u1 * u2) + RT * c1 ^ 2 * c2 ^ 2 * (u1 * u2 + u * u1 + u * u2) / (u * u1 * u2) ^ 2)).
  { unfold f. field. repeat split; lra. }
  rewrite I, Z1, Z2. assert (0 < (u - u1) * (u2 - u)) by (apply Rmult_lt_0_compat; lra). assert (D : 0 < u * u1 * u2) by (repeat apply Rmult_lt_0_compat; lra).
  assert (0 < 2 * RT * c1 * c2 * (c1 + c2) / (u * u1 * u2)) by (apply Rdiv_lt_0_compat; [repeat apply Rmult_lt_0_compat; lra|exact D]).
  assert (0 < RT * c1 ^ 2 * c2 ^ 2 * (u1 * u2 + u * u1 + u * u2) / (u * u1 * u2) ^ 2).
  { apply Rdiv_lt_0_compat; [|apply pow_lt, D]. repeat apply Rmult_lt_0_compat; try lra. assert (0 < u1 * u2) by nra. assert (0 < u * u1) by nra. assert (0 < u * u2) by nra. lra. }
  replace (((u2 - u) * 0 + (u - u1) * 0) / (u2 - u1)) with 0 by (field; lra). nra.
Qed.
Lemma press_between V1 V2 : b < V1 -> V1 < V2 -> quart V1 = 0 -> quart V2 = 0 -> press V1 < press V2.
Proof.
  intros H1 H2 Q1 Q2.
  destruct (MVT_cor2 press (fun V => - quart V / ((V - b) * ((V + ep * b) * (V + sg * b))) ^ 2) V1 V2 H2) as (c & E & C1 & C2).
  { intros c Hc. apply is_derive_Reals. apply d_press. lra. }
  pose proof (quart_between V1 c V2 H1 (conj C1 C2) Q1 Q2) as N. destruct (above c ltac:(lra)) as (A1 & A2 & A3).
  assert (0 < - quart c / ((c - b) * ((c + ep * b) * (c + sg * b))) ^ 2). { apply Rdiv_lt_0_compat; [lra|]. apply pow_lt. repeat apply Rmult_lt_0_compat; lra. }
  assert (0 < V2 - V1) by lra. nra.
Qed.
(* The cubic and the pressure. *)
Let beta := P * b / RT.
Let q := am / (b * RT).
Let Zv (V : R) := P * V / RT.
Lemma cubic_press V : b < V -> realCubic (cA ep sg beta q) (cB ep sg beta q) (cC ep sg beta q) (Zv V) =
  P ^ 2 / RT ^ 3 * ((V - b) * ((V + ep * b) * (V + sg * b))) * (P - press V).
Proof. intros H. destruct (above V H) as (A1 & A2 & A3). rewrite cubic_eq. unfold beta, q, Zv, press. field. repeat split; lra. Qed.
Lemma slope_press V : b < V -> press V = P -> slope (cA ep sg beta q) (cB ep sg beta q) (Zv V) = P / RT ^ 2 / ((V - b) * ((V + ep * b) * (V + sg * b))) * quart V.
Proof.
  intros H E. destruct (above V H) as (A1 & A2 & A3).
  assert (K : P * ((V - b) * ((V + ep * b) * (V + sg * b))) = RT * ((V + ep * b) * (V + sg * b)) - am * (V - b)). { rewrite <- E. unfold press. field. repeat split; lra. }
  unfold slope, cA, cB, beta, q, Zv, quart.
  apply Rmult_eq_reg_r with (RT ^ 2 / P * ((V - b) * ((V + ep * b) * (V + sg * b)))); [|apply Rgt_not_eq; apply Rmult_lt_0_compat; [apply Rdiv_lt_0_compat; [apply pow_lt; lra|lra]|repeat apply Rmult_lt_0_compat; lra]].
  transitivity (RT * (V + ep * b) ^ 2 * (V + sg * b) ^ 2 - am * (2 * V + ep * b + sg * b) * (V - b) ^ 2); [|field; repeat split; lra].
  transitivity ((2 * V + ep * b + sg * b) * ((V - b) * (P * ((V - b) * ((V + ep * b) * (V + sg * b))))) + (V + ep * b) * (V + sg * b) * (P * ((V - b) * ((V + ep * b) * (V + sg * b)))) + am * ((V - b) * ((V + ep * b) * (V + sg * b))) - RT * (2 * V + ep * b + sg * b) * ((V - b) * ((V + ep * b) * (V + sg * b)))).
  - field. lra.
  - rewrite K. ring.
Qed.
End Pressure.

(* A cubic with one real root changes its sign there. *)
Lemma single_sign b c d : eps < discriminant b c d -> exists s, (forall type, root type b c d = s) /\ forall z, (realCubic b c d z < 0 <-> z < s) /\ (0 < realCubic b c d z <-> s < z) /\ (realCubic b c d z = 0 <-> z = s).
Proof.
  intros D. destruct (cardano_one b c d D) as (r & Er & F). destruct (cardano_one_eq b c d D) as (u & v & Hv & E). rewrite E in Er. injection Er as <-.
  exists (single_root b c d). split; [intros type; unfold root; rewrite (root_one type b c d D); reflexivity|]. intros z.
  assert (K : realCubic b c d z = (z - single_root b c d) * ((z - u) ^ 2 + v ^ 2)).
  { specialize (F (RtoC z)). apply (f_equal fst) in F. revert F. generalize (single_root b c d). intros s. unfold cubic, factors, RtoC, Cminus, Cplus, Cmult, Copp. cbn [fst snd]. intros F. unfold realCubic. ring_simplify in F. ring_simplify. lra. }
  rewrite K. assert (0 < (z - u) ^ 2 + v ^ 2). { pose proof (pow2_ge_0 (z - u)). assert (0 < v ^ 2) by (rewrite <- Rsqr_pow2; apply Rlt_0_sqr; exact Hv). lra. }
  repeat split; intros; nra.
Qed.

(* ---- C104: one volume ---- *)
(* The pressure that the equation of state gives to a volume, and the volumes greater than
   the co-volume where it has a stationary point. *)
Definition eosP (e : EOS) (T : R) (x : nat -> R) (V : R) : R :=
  gasR * T / (V - bmix e x) - amix e T x / ((V + epsilon_ (model e) * bmix e x) * (V + sigma_ (model e) * bmix e x)).
Definition spinodal (e : EOS) (T : R) (x : nat -> R) (V : R) : Prop := bmix e x < V /\ is_derive (eosP e T x) V 0.
(* A solver that finds the real roots of the quartic with the given coefficients. *)
Definition solves (solver : Solver) (a b c d f : R) : Prop := forall V, In V (solver a b c d f) <-> a * V ^ 4 + b * V ^ 3 + c * V ^ 2 + d * V + f = 0.
(* It does so for the quartic that says where the derivative of the pressure,
   RT (V + k1)^2 (V + k2)^2 = a (2 V + k1 + k2) (V - b)^2, is zero. *)
Definition exact (solver : Solver) (e : EOS) (T : R) (x : nat -> R) : Prop :=
  let b := bmix e x in let a := amix e T x in let k1 := epsilon_ (model e) * b in let k2 := sigma_ (model e) * b in let rt := gasR * T in
  forall c3 c2 c1 c0, (forall V, rt * (V + k1) ^ 2 * (V + k2) ^ 2 - a * (2 * V + k1 + k2) * (V - b) ^ 2 = rt * V ^ 4 + c3 * V ^ 3 + c2 * V ^ 2 + c1 * V + c0) ->
  solves solver rt c3 c2 c1 c0.
(* The equation of state has one volume at the given conditions. *)
Definition one_root (e : EOS) (T P : R) (x : nat -> R) : Prop := eps < disc (epsilon_ (model e)) (sigma_ (model e)) (eos_beta e T P x) (eos_q e T x).
Definition three_roots (e : EOS) (T P : R) (x : nat -> R) : Prop := disc (epsilon_ (model e)) (sigma_ (model e)) (eos_beta e T P x) (eos_q e T x) < - eps.
(* The same equation of state for a given phase, without identification. *)
Definition plain (t : FluidType) (e : EOS) : EOS := mkEOS (nspecies e) (Tcr e) (Pcr e) (omega e) (model e) t (interaction e) NoMethod.
Definition withMethod (m : PhaseMethod) (t : FluidType) (e : EOS) : EOS := mkEOS (nspecies e) (Tcr e) (Pcr e) (omega e) (model e) t (interaction e) m.

Lemma quartic_eq T am b ep sg V : let k1 := ep * b in let k2 := sg * b in
  gasR * T * V ^ 4 + (2 * gasR * T * (k2 + k1) - 2 * am) * V ^ 3 + (gasR * T * (k2 * k2 + 4 * k1 * k2 + k1 * k1) - am * (k1 + k2 - 4 * b)) * V ^ 2 +
  (2 * gasR * T * (k1 * k2 * k2 + k1 * k1 * k2) - 2 * am * (b * b - k2 * b - k1 * b)) * V + (gasR * T * k1 * k1 * k2 * k2 - am * (k1 + k2) * b * b) = quart (gasR * T) am b ep sg V.
Proof. cbn zeta. unfold quart. ring. Qed.
Lemma spinodal_quart e T P x V : mixture e T P x -> bmix e x < V -> (is_derive (eosP e T x) V 0 <-> quart (gasR * T) (amix e T x) (bmix e x) (epsilon_ (model e)) (sigma_ (model e)) V = 0).
Proof.
  intros HM HV. pose proof (bmix_pos e T P x HM) as Hb. pose proof (ep_gt (model e)) as He. pose proof (sg_gt (model e)) as Hs.
  pose proof (d_press (gasR * T) (amix e T x) (bmix e x) (epsilon_ (model e)) (sigma_ (model e)) Hb He Hs V HV) as D.
  destruct (above (bmix e x) (epsilon_ (model e)) (sigma_ (model e)) Hb He Hs V HV) as (A1 & A2 & A3).
  set (W := (V - bmix e x) * ((V + epsilon_ (model e) * bmix e x) * (V + sigma_ (model e) * bmix e x))) in *. assert (HW : 0 < W) by (unfold W; repeat apply Rmult_lt_0_compat; lra).
  change (press (gasR * T) (amix e T x) (bmix e x) (epsilon_ (model e)) (sigma_ (model e))) with (eosP e T x) in D. split.
  - intros D0. pose proof (eq_trans (eq_sym (is_derive_unique _ _ _ D0)) (is_derive_unique _ _ _ D)) as E. set (qq := quart _ _ _ _ _ _) in *.
    assert (qq = - (0 * W ^ 2)); [|lra]. rewrite E. field. lra.
  - intros E. rewrite E in D. replace (-0 / W ^ 2) with 0 in D by (field; lra). exact D.
Qed.
Section One.
Variables (solver : Solver) (e : EOS) (T P : R) (x : nat -> R).
Hypothesis (HS : exact solver e T x) (HM : mixture e T P x) (H1 : one_root e T P x).
Let b := bmix e x.
Let ep := epsilon_ (model e).
Let sg := sigma_ (model e).
Let Vs := Zsel e T P x * (gasR * T / P).
Lemma simple_one : simple_roots e T P x.
Proof. pose proof eps_pos. unfold simple_roots, one_root in *. rewrite Rabs_right; [exact H1|lra]. Qed.
Lemma eosP_sign V : b < V -> (eosP e T x V < P <-> Vs < V) /\ (P < eosP e T x V <-> V < Vs) /\ (eosP e T x V = P <-> V = Vs).
Proof.
  intros HV. pose proof (bmix_pos e T P x HM) as Hb. pose proof (ep_gt (model e)) as He. pose proof (sg_gt (model e)) as Hsg. pose proof HM as (HT & HP & _). pose proof gasR_pos as G.
  assert (RT : 0 < gasR * T) by (apply Rmult_lt_0_compat; lra).
  pose proof (cubic_press (gasR * T) (amix e T x) b ep sg P RT Hb He Hsg V HV) as C.
  destruct (single_sign _ _ _ H1) as (s & Hs & Sg). assert (ES : Zsel e T P x = s) by apply Hs.
  unfold eos_beta, eos_q in Sg. fold ep sg b in Sg. replace (b * gasR * T) with (b * (gasR * T)) in Sg by ring.
  specialize (Sg (P * V / (gasR * T))). rewrite C in Sg.
  destruct (above b ep sg Hb He Hsg V HV) as (A1 & A2 & A3).
  set (W := P ^ 2 / (gasR * T) ^ 3 * ((V - b) * ((V + ep * b) * (V + sg * b)))) in *.
  assert (HW : 0 < W). { unfold W. apply Rmult_lt_0_compat; [apply Rdiv_lt_0_compat; apply pow_lt; lra|repeat apply Rmult_lt_0_compat; lra]. }
  change (press (gasR * T) (amix e T x) b ep sg V) with (eosP e T x V) in Sg. clear C. set (p := eosP e T x V) in *.
  assert (ZV : (P * V / (gasR * T) < s <-> V < Vs) /\ (s < P * V / (gasR * T) <-> Vs < V) /\ (P * V / (gasR * T) = s <-> V = Vs)).
  { unfold Vs. rewrite ES. set (k := gasR * T / P). assert (K : 0 < k) by (apply Rdiv_lt_0_compat; lra). assert (EV : V = P * V / (gasR * T) * k) by (unfold k; field; lra).
    set (z := P * V / (gasR * T)) in *. clearbody z k. rewrite EV. clear - K. repeat split; intros; nra. }
  destruct ZV as (Z1 & Z2 & Z3). destruct Sg as (S1 & S2 & S3). clearbody W p. clear - HW Z1 Z2 Z3 S1 S2 S3.
  rewrite <- Z1, <- Z2, <- Z3, <- S1, <- S2, <- S3. repeat split; intros; nra.
Qed.
(* The only volume is not a spinodal one. *)
Lemma not_spinodal V : spinodal e T x V -> V <> Vs.
Proof.
  intros [HV D] E. pose proof (bmix_pos e T P x HM) as Hb. pose proof (ep_gt (model e)) as He. pose proof (sg_gt (model e)) as Hsg. pose proof HM as (HT & HP & _). pose proof gasR_pos as G.
  assert (RT : 0 < gasR * T) by (apply Rmult_lt_0_compat; lra).
  apply (spinodal_quart e T P x V HM HV) in D. destruct (eosP_sign V HV) as (_ & _ & S3). pose proof (proj2 S3 E) as EP.
  pose proof (slope_press (gasR * T) (amix e T x) b ep sg P RT Hb He Hsg HP V HV EP) as SL. unfold b, ep, sg in SL. rewrite D, Rmult_0_r in SL.
  destruct (Zsel_root e T P x simple_one) as [_ S]. unfold beta_, q_ in S. replace (bmix e x * gasR * T) with (bmix e x * (gasR * T)) in S by ring.
  replace (P * V / (gasR * T)) with (Zsel e T P x) in SL; [lra|]. rewrite E. unfold Vs. field. lra.
Qed.
Lemma same_side V1 V2 : spinodal e T x V1 -> spinodal e T x V2 -> (V1 < Vs <-> V2 < Vs).
Proof.
  assert (G : forall V1 V2, spinodal e T x V1 -> spinodal e T x V2 -> V1 < Vs -> V2 < Vs).
  { intros U1 U2 S1 S2 L. destruct (Rlt_le_dec U2 Vs) as [|L2]; [assumption|exfalso]. pose proof (not_spinodal U2 S2) as N. assert (Vs < U2) by lra.
    pose proof (bmix_pos e T P x HM) as Hb. pose proof (ep_gt (model e)) as He. pose proof (sg_gt (model e)) as Hsg. pose proof HM as (HT & HP & _). pose proof gasR_pos as G.
    assert (RT : 0 < gasR * T) by (apply Rmult_lt_0_compat; lra). destruct S1 as [B1 D1]. destruct S2 as [B2 D2].
    apply (spinodal_quart e T P x U1 HM B1) in D1. apply (spinodal_quart e T P x U2 HM B2) in D2.
    pose proof (press_between (gasR * T) (amix e T x) b ep sg RT Hb He Hsg U1 U2 B1 ltac:(lra) D1 D2) as I.
    destruct (eosP_sign U1 B1) as (_ & X1 & _). destruct (eosP_sign U2 B2) as (X2 & _ & _). apply X1 in L. apply X2 in H.
    change (eosP e T x U1 < eosP e T x U2) in I. lra. }
  intros S1 S2. split; apply G; assumption.
Qed.
Lemma spinodals_spec V : In V (List.filter (fun r => if Rlt_dec r b then false else true) (spinodals solver T (amix e T x) b ep sg)) <-> spinodal e T x V.
Proof.
  pose proof (bmix_pos e T P x HM) as Hb. pose proof (ep_gt (model e)) as He. pose proof (sg_gt (model e)) as Hsg. pose proof HM as (HT & HP & _). pose proof gasR_pos as G.
  assert (RT : 0 < gasR * T) by (apply Rmult_lt_0_compat; lra). rewrite filter_In. unfold spinodals. cbn zeta. pose proof (HS _ _ _ _ (fun V => eq_sym (quartic_eq T (amix e T x) b ep sg V)) V) as HS1. rewrite HS1. clear HS1.
  rewrite (quartic_eq T (amix e T x) b ep sg V). destruct (Rlt_dec V b) as [L|L].
  - split; [intros [_ K]; discriminate|intros [K _]; unfold b in L; lra].
  - destruct (Req_EM_T V b) as [->|N].
    + split; [intros [K _]; exfalso|intros [K _]; unfold b in K; lra]. unfold quart in K. replace (b - b) with 0 in K by ring. replace (b + ep * b) with (b * (1 + ep)) in K by ring. replace (b + sg * b) with (b * (1 + sg)) in K by ring.
      assert (0 < gasR * T * (b * (1 + ep)) ^ 2 * (b * (1 + sg)) ^ 2); [|lra]. apply Rmult_lt_0_compat; [apply Rmult_lt_0_compat; [exact RT|]|]; apply pow_lt; apply Rmult_lt_0_compat; fold b in Hb; unfold ep, sg; lra.
    + assert (HV : b < V) by lra. unfold spinodal. rewrite (spinodal_quart e T P x V HM HV). split; [intros [K _]; split; [exact HV|exact K]|intros [_ K]; split; [exact K|reflexivity]].
Qed.
Lemma byPressure_ok : byPressure solver e P T (amix e T x) b = Ok Vapor /\ (forall V, spinodal e T x V -> V < Vs) \/
  byPressure solver e P T (amix e T x) b = Ok Liquid /\ (exists V, spinodal e T x V) /\ (forall V, spinodal e T x V -> Vs < V).
Proof.
  unfold byPressure, pressureComparison. fold ep sg. pose proof spinodals_spec as Sp.
  destruct (List.filter (fun r => if Rlt_dec r b then false else true) (spinodals solver T (amix e T x) b ep sg)) as [|V0 l].
  - left. split; [reflexivity|]. intros V HV. apply Sp in HV. destruct HV.
  - assert (S0 : spinodal e T x V0) by (apply Sp; left; reflexivity).
    change (pAt T (amix e T x) b ep sg) with (eosP e T x).
    pose proof (not_spinodal V0 S0) as N0. destruct (Rlt_le_dec V0 Vs) as [L|L].
    + left. assert (A : forall V, spinodal e T x V -> V < Vs) by (intros V HV; apply (same_side V0 V S0 HV); exact L). split; [|exact A].
      destruct (Rlt_dec P _) as [_|K]; [reflexivity|exfalso; apply K]. apply minOf_lt. split; [apply (proj1 (proj2 (eosP_sign V0 (proj1 S0)))), L|].
      intros y Hy. apply in_map_iff in Hy. destruct Hy as (V & <- & HV). assert (SV : spinodal e T x V) by (apply Sp; right; exact HV). apply (proj1 (proj2 (eosP_sign V (proj1 SV)))), A, SV.
    + right. assert (A : forall V, spinodal e T x V -> Vs < V). { intros V HV. pose proof (not_spinodal V HV). pose proof (same_side V0 V S0 HV). destruct (Rlt_le_dec V Vs); [exfalso; assert (V0 < Vs) by tauto; lra|lra]. }
      split; [|split; [exists V0; exact S0|exact A]].
      destruct (Rlt_dec P _) as [K|_]; [exfalso|]. { apply minOf_lt in K. destruct K as [K _]. apply (proj1 (proj2 (eosP_sign V0 (proj1 S0)))) in K. lra. }
      destruct (Rlt_dec _ P) as [_|K]; [reflexivity|exfalso; apply K]. apply maxOf_lt. split; [apply (proj1 (eosP_sign V0 (proj1 S0))), A, S0|].
      intros y Hy. apply in_map_iff in Hy. destruct Hy as (V & <- & HV). assert (SV : spinodal e T x V) by (apply Sp; right; exact HV). apply (proj1 (eosP_sign V (proj1 SV))), A, SV.
Qed.
End One.

Section Outcome.
Variables (solver : Solver) (e : EOS) (T P : R) (x : nat -> R).
(* Asked for a phase and using Gibbs energies, the equation of state gives what it
   gives for that phase without identification, or fugacity coefficients of exp 100
   beside the energy of the evaluation before. *)
Definition accepted (t : FluidType) : Prop := forall old, compute (byPressure solver e) (withMethod GibbsMethod t e) old T P x = compute noresort (plain t e) old T P x.
Definition rejected (t : FluidType) : Prop := forall old, exists r, compute (byPressure solver e) (withMethod GibbsMethod t e) old T P x = Ok r /\ Gres r = Gres old /\ forall k, ln_phi r k = 100.
Definition other (t : FluidType) : FluidType := match t with Vapor => Liquid | Liquid => Vapor end.
Lemma identified single m t ty old : Sum (nspecies e) x = 1 -> simple_roots e T P x ->
  bind (cardano (cA (epsilon_ (model e)) (sigma_ (model e)) (beta_ e T P x) (q_ e T x)) (cB (epsilon_ (model e)) (sigma_ (model e)) (beta_ e T P x) (q_ e T x)) (cC (epsilon_ (model e)) (sigma_ (model e)) (beta_ e T P x) (q_ e T x)))
    (fun r => identify single (withMethod m t e) T P (amix e T x) (bmix e x) (realRoots r) (Zsel (plain t e) T P x)) = Ok ty ->
  if fluid_eqb ty t then compute single (withMethod m t e) old T P x = compute noresort (plain t e) old T P x
  else exists r, compute single (withMethod m t e) old T P x = Ok r /\ (forall k, ln_phi r k = 100) /\ Gres r = Gres old /\ Hres r = Hres old /\ Vres r = Vres old.
Proof.
  intros H1 HD HI. pose proof (not_all_nonpositive _ _ H1) as NN.
  assert (RO : bind (cardano (cA (epsilon_ (model e)) (sigma_ (model e)) (beta_ e T P x) (q_ e T x)) (cB (epsilon_ (model e)) (sigma_ (model e)) (beta_ e T P x) (q_ e T x)) (cC (epsilon_ (model e)) (sigma_ (model e)) (beta_ e T P x) (q_ e T x)))
    (fun r => selectRoot t (realRoots r)) = Ok (Zsel (plain t e) T P x)) by (apply root_ok; exact HD).
  unfold compute. cbn [nspecies withMethod plain]. rewrite NN. cbn zeta. cbn [model withMethod plain fluidtype].
  change (beta_ (withMethod m t e) T P x) with (beta_ e T P x). change (beta_ (plain t e) T P x) with (beta_ e T P x).
  change (q_ (withMethod m t e) T x) with (q_ e T x). change (q_ (plain t e) T x) with (q_ e T x).
  change (amix (withMethod m t e) T x) with (amix e T x). change (amix (plain t e) T x) with (amix e T x).
  change (bmix (withMethod m t e) x) with (bmix e x). change (bmix (plain t e) x) with (bmix e x).
  destruct (cardano _ _ _) as [r| |]; cbn [bind] in *; try discriminate. rewrite RO. cbn [bind]. rewrite HI. cbn [bind].
  unfold identify at 1. cbn [method plain fluidtype bind]. assert (FR : fluid_eqb t t = true) by (destruct t; reflexivity).
  destruct (fluid_eqb ty t) eqn:E.
  - rewrite FR. reflexivity.
  - eexists. split; [reflexivity|]. repeat split.
Qed.
End Outcome.
(* For every condition with simple roots, one of the phases is accepted, the other rejected, and the volume of the first exceeds the co-volume. *)
Definition C104_statement : Prop := forall solver e T P x, (one_root e T P x -> exact solver e T x) -> mixture e T P x -> simple_roots e T P x ->
  exists t, accepted solver e T P x t /\ rejected solver e T P x (other t) /\ above_covolume noresort (plain t e) T P x.
Lemma realRoots_one u s v : v <> 0 -> realRoots ((s, 0), (u, - v), (u, v)) = [s].
Proof. intros Hv. unfold realRoots. cbn [flat_map fst snd]. destruct (Req_EM_T 0 0); [|contradiction]. destruct (Req_EM_T (- v) 0); [lra|]. destruct (Req_EM_T v 0); [contradiction|]. reflexivity. Qed.
Lemma realRoots_three a b c : realRoots ((a, 0), (b, 0), (c, 0)) = [a; b; c].
Proof. unfold realRoots. cbn [flat_map fst snd]. destruct (Req_EM_T 0 0); [|contradiction]. reflexivity. Qed.
Lemma finish solver e T P x t : Sum (nspecies e) x = 1 -> simple_roots e T P x ->
  (forall t', bind (cardano (cA (epsilon_ (model e)) (sigma_ (model e)) (beta_ e T P x) (q_ e T x)) (cB (epsilon_ (model e)) (sigma_ (model e)) (beta_ e T P x) (q_ e T x)) (cC (epsilon_ (model e)) (sigma_ (model e)) (beta_ e T P x) (q_ e T x)))
    (fun r => identify (byPressure solver e) (withMethod GibbsMethod t' e) T P (amix e T x) (bmix e x) (realRoots r) (Zsel (plain t' e) T P x)) = Ok t) ->
  accepted solver e T P x t /\ rejected solver e T P x (other t).
Proof.
  intros H1 HD HI. split.
  - intros old. pose proof (identified e T P x (byPressure solver e) GibbsMethod t t old H1 HD (HI t)) as K. assert (FR : fluid_eqb t t = true) by (destruct t; reflexivity). rewrite FR in K. exact K.
  - intros old. pose proof (identified e T P x (byPressure solver e) GibbsMethod (other t) t old H1 HD (HI (other t))) as K. assert (FR : fluid_eqb t (other t) = false) by (destruct t; reflexivity). rewrite FR in K.
    destruct K as (r & E & L & G & _). exists r. split; [exact E|]. split; assumption.
Qed.
Lemma accepts_plain t e T P x : simple_roots e T P x -> accepts noresort (plain t e) T P x.
Proof. intros HD. apply accepts_none; [reflexivity|exact HD]. Qed.
Lemma value_plain t e T P x : mixture e T P x -> simple_roots e T P x -> value noresort (plain t e) Vres T P x = Zsel (plain t e) T P x * (gasR * T / P).
Proof. intros HM HD. apply value_V; [apply HM|exact HD|apply accepts_plain, HD]. Qed.
(* One volume: the phase is a vapour beyond all the spinodal volumes and a liquid before them; nothing fails. *)
Theorem C104_one_partial solver e T P x : exact solver e T x -> mixture e T P x -> one_root e T P x ->
  let V := value noresort (plain Vapor e) Vres T P x in
  bmix e x < V /\ eosP e T x V = P /\
  ((forall U, spinodal e T x U -> U < V) /\ accepted solver e T P x Vapor /\ rejected solver e T P x Liquid \/
   (exists U, spinodal e T x U) /\ (forall U, spinodal e T x U -> V < U) /\ accepted solver e T P x Liquid /\ rejected solver e T P x Vapor).
Proof.
  intros HS HM H1 V. pose proof (simple_one e T P x H1) as HD.
  assert (ZE : Zsel (plain Vapor e) T P x = Zsel e T P x) by (destruct (single_sign _ _ _ H1) as (s & Hs & _); transitivity s; [apply Hs|symmetry; apply Hs]).
  assert (EV : V = Zsel e T P x * (gasR * T / P)) by (unfold V; rewrite value_plain by assumption; rewrite ZE; reflexivity).
  assert (AB : bmix e x < V) by (apply (C92_vapor_partial noresort (plain Vapor e) T P x eq_refl HM HD (accepts_plain Vapor e T P x HD))).
  split; [exact AB|]. split; [apply (eosP_sign e T P x HM H1 V AB); exact EV|].
  assert (SE : Sum (nspecies e) x = 1) by apply HM.
  assert (ID : forall ty, byPressure solver e P T (amix e T x) (bmix e x) = Ok ty -> accepted solver e T P x ty /\ rejected solver e T P x (other ty)).
  { intros ty K. apply (finish solver e T P x ty SE HD). intros t'. destruct (cardano_one_eq _ _ _ H1) as (u & v & Hv & E).
    change (eos_beta e T P x) with (beta_ e T P x) in E. change (eos_q e T x) with (q_ e T x) in E. rewrite E. cbn [bind]. rewrite realRoots_one by exact Hv. exact K. }
  destruct (byPressure_ok solver e T P x HS HM H1) as [[K A]|[K [N A]]].
  - left. split; [intros U HU; rewrite EV; apply A, HU|]. apply (ID Vapor K).
  - right. split; [exact N|]. split; [intros U HU; rewrite EV; apply A, HU|]. apply (ID Liquid K).
Qed.
Print Assumptions C104_one_partial.
(* Three volumes beyond the co-volume: the phase with the least residual Gibbs energy. *)
Lemma hasG_physical ep sg beta Z : physical ep sg beta Z -> hasG ep sg beta Z = true.
Proof.
  intros (P0 & P1 & P2 & P3). unfold hasG. destruct (Rlt_dec beta Z); [|lra]. destruct (Req_EM_T ep sg); [reflexivity|].
  destruct (Rlt_dec 0 _) as [|K]; [reflexivity|]. exfalso. apply K. apply Rdiv_lt_0_compat; assumption.
Qed.
Section Three.
Variables (solver : Solver) (e : EOS) (T P : R) (x : nat -> R).
Hypothesis (HM : mixture e T P x) (H3 : three_roots e T P x).
Lemma simple_three : simple_roots e T P x.
Proof. pose proof eps_pos. unfold simple_roots, three_roots in *. rewrite Rabs_left; lra. Qed.
Let ep := epsilon_ (model e).
Let sg := sigma_ (model e).
Lemma identify_three t' : bind (cardano (cA ep sg (beta_ e T P x) (q_ e T x)) (cB ep sg (beta_ e T P x) (q_ e T x)) (cC ep sg (beta_ e T P x) (q_ e T x)))
    (fun r => identify (byPressure solver e) (withMethod GibbsMethod t' e) T P (amix e T x) (bmix e x) (realRoots r) (Zsel (plain t' e) T P x)) =
  Ok (identifyByGibbs T P ep sg (amix e T x) (bmix e x) (Zsel (plain Liquid e) T P x) (Zsel (plain Vapor e) T P x)).
Proof.
  destruct (cardano_three_eq _ _ _ H3) as (m & E & L1 & L2).
  change (eos_beta e T P x) with (beta_ e T P x) in E, L1, L2. change (eos_q e T x) with (q_ e T x) in E, L1, L2.
  assert (ZL : Zsel (plain Liquid e) T P x = low_root (cA ep sg (beta_ e T P x) (q_ e T x)) (cB ep sg (beta_ e T P x) (q_ e T x)) (cC ep sg (beta_ e T P x) (q_ e T x))).
  { unfold Zsel, Zof, root. cbn [fluidtype plain model]. change (beta_ (plain Liquid e) T P x) with (beta_ e T P x). change (q_ (plain Liquid e) T x) with (q_ e T x). fold ep sg. pose proof (root_three Liquid _ _ _ H3) as K. change (eos_beta e T P x) with (beta_ e T P x) in K. change (eos_q e T x) with (q_ e T x) in K. fold ep sg in K. rewrite K. reflexivity. }
  assert (ZV : Zsel (plain Vapor e) T P x = top_root (cA ep sg (beta_ e T P x) (q_ e T x)) (cB ep sg (beta_ e T P x) (q_ e T x)) (cC ep sg (beta_ e T P x) (q_ e T x))).
  { unfold Zsel, Zof, root. cbn [fluidtype plain model]. change (beta_ (plain Vapor e) T P x) with (beta_ e T P x). change (q_ (plain Vapor e) T x) with (q_ e T x). fold ep sg. pose proof (root_three Vapor _ _ _ H3) as K. change (eos_beta e T P x) with (beta_ e T P x) in K. change (eos_q e T x) with (q_ e T x) in K. fold ep sg in K. rewrite K. reflexivity. }
  rewrite ZL, ZV. fold ep sg in E, L1, L2. rewrite E. cbn [bind]. rewrite realRoots_three. unfold identify. cbn [method withMethod model]. fold ep sg.
  destruct (Rlt_dec _ _) as [_|K]; [reflexivity|exfalso; apply K; lra].
Qed.
Theorem C104_three_partial : above_covolume noresort (plain Liquid e) T P x ->
  let G t := value noresort (plain t e) Gres T P x in
  (G Vapor < G Liquid -> accepted solver e T P x Vapor /\ rejected solver e T P x Liquid) /\
  (G Liquid <= G Vapor -> accepted solver e T P x Liquid /\ rejected solver e T P x Vapor).
Proof.
  intros HA G. pose proof simple_three as HD. assert (SE : Sum (nspecies e) x = 1) by apply HM.
  assert (EG : forall t, G t = residualG T ep sg (P * bmix e x / (gasR * T)) (amix e T x / (bmix e x * gasR * T)) (Zsel (plain t e) T P x)).
  { intros t. unfold G. rewrite value_ok; [|exact SE|exact HD|apply accepts_plain, HD]. reflexivity. }
  assert (PL : physical ep sg (beta_ e T P x) (Zsel (plain Liquid e) T P x)) by (apply (physical_of noresort (plain Liquid e) T P x HM HD (accepts_plain Liquid e T P x HD) HA)).
  assert (PV : physical ep sg (beta_ e T P x) (Zsel (plain Vapor e) T P x)).
  { apply (physical_of noresort (plain Vapor e) T P x HM HD (accepts_plain Vapor e T P x HD)). apply C92_vapor_partial; [reflexivity|exact HM|exact HD|apply accepts_plain, HD]. }
  assert (ID : identifyByGibbs T P ep sg (amix e T x) (bmix e x) (Zsel (plain Liquid e) T P x) (Zsel (plain Vapor e) T P x) = if Rlt_dec (G Vapor) (G Liquid) then Vapor else Liquid).
  { unfold identifyByGibbs. change (P * bmix e x / (gasR * T)) with (beta_ e T P x) in *. cbn zeta. rewrite (hasG_physical _ _ _ _ PL), (hasG_physical _ _ _ _ PV). rewrite <- !EG. cbn [andb]. destruct (Rlt_dec (G Vapor) (G Liquid)); reflexivity. }
  split; intros L; [apply (finish solver e T P x Vapor SE HD)|apply (finish solver e T P x Liquid SE HD)]; intros t'; rewrite identify_three, ID; destruct (Rlt_dec (G Vapor) (G Liquid)); reflexivity || lra.
Qed.
End Three.
Print Assumptions C104_three_partial.
(* The criterion of the volume. *)
Theorem C104_volume e T P x t old : mixture e T P x -> simple_roots e T P x ->
  let V := value noresort (plain t e) Vres T P x in let stable := if Rlt_dec (1.75 * bmix e x) V then Vapor else Liquid in
  (stable = t -> compute noresort (withMethod VolumeMethod t e) old T P x = compute noresort (plain t e) old T P x) /\
  (stable <> t -> exists r, compute noresort (withMethod VolumeMethod t e) old T P x = Ok r /\ forall k, ln_phi r k = 100).
Proof.
  intros HM HD V stable. assert (SE : Sum (nspecies e) x = 1) by apply HM. pose proof (bmix_pos e T P x HM) as Hb.
  assert (ID : bind (cardano (cA (epsilon_ (model e)) (sigma_ (model e)) (beta_ e T P x) (q_ e T x)) (cB (epsilon_ (model e)) (sigma_ (model e)) (beta_ e T P x) (q_ e T x)) (cC (epsilon_ (model e)) (sigma_ (model e)) (beta_ e T P x) (q_ e T x)))
    (fun r => identify noresort (withMethod VolumeMethod t e) T P (amix e T x) (bmix e x) (realRoots r) (Zsel (plain t e) T P x)) = Ok stable).
  { pose proof (root_ok t _ _ _ HD) as K. change (eos_beta e T P x) with (beta_ e T P x) in K. change (eos_q e T x) with (q_ e T x) in K.
    destruct (cardano _ _ _) as [r| |]; cbn [bind] in *; try discriminate. unfold identify. cbn [method withMethod]. f_equal. unfold identifyByVolume, stable, V. rewrite value_plain by assumption.
    pose proof HM as (HT & HP & _). set (Z := Zsel (plain t e) T P x). replace (Z * gasR * T / P / bmix e x) with (Z * (gasR * T / P) / bmix e x) by (field; lra). set (v := Z * (gasR * T / P)).
    destruct (Rlt_dec 1.75 _) as [L|L]; destruct (Rlt_dec _ v) as [M|M]; try reflexivity; exfalso.
    - apply M. apply Rmult_lt_reg_r with (/ bmix e x); [apply Rinv_0_lt_compat, Hb|]. rewrite Rmult_assoc, Rinv_r by lra. rewrite Rmult_1_r. exact L.
    - apply L. apply Rmult_lt_reg_r with (bmix e x); [exact Hb|]. unfold Rdiv. rewrite Rmult_assoc, Rinv_l by lra. lra. }
  pose proof (identified e T P x noresort VolumeMethod t stable old SE HD ID) as K. split; intros Q.
  - rewrite Q in K. assert (FR : fluid_eqb t t = true) by (destruct t; reflexivity). rewrite FR in K. exact K.
  - assert (FR : fluid_eqb stable t = false) by (destruct stable, t; reflexivity || contradiction). rewrite FR in K. destruct K as (r & E & L & _). exists r. split; assumption.
Qed.
Print Assumptions C104_volume.
(* Above the critical temperature the cubic of Redlich and Kwong can have two negative roots: the energy of the "liquid" is not a
   number, the vapour is not less, and the liquid with its negative volume is accepted. *)
Lemma three_w3 : three_roots w3 100 100 x1.
Proof.
  unfold three_roots. change (eos_beta w3 100 100 x1) with (beta_ w3 100 100 x1). change (eos_q w3 100 x1) with (q_ w3 100 x1). rewrite beta_w3, q_w3. cbn [model w3 epsilon_ sigma_].
  assert (disc 0 1 1 (10687 / 2166000) < - 1) by (unfold disc, discriminant, realCubic, cA, cB, cC; lra). pose proof eps_small. lra.
Qed.
Lemma liquid_w3 solver : accepted solver w3 100 100 x1 Liquid /\ rejected solver w3 100 100 x1 Vapor.
Proof.
  apply (finish solver w3 100 100 x1 Liquid); [apply mixture_w3|apply simple_w3|]. intros t'. rewrite (identify_three solver w3 100 100 x1 three_w3). f_equal. unfold identifyByGibbs. cbn zeta.
  assert (N : hasG (epsilon_ (model w3)) (sigma_ (model w3)) (100 * bmix w3 x1 / (gasR * 100)) (Zsel (plain Liquid w3) 100 100 x1) = false).
  { unfold hasG. change (100 * bmix w3 x1 / (gasR * 100)) with (beta_ w3 100 100 x1). rewrite beta_w3. change (Zsel (plain Liquid w3) 100 100 x1) with (Zsel w3 100 100 x1). pose proof negative_root. destruct (Rlt_dec 1 _); [lra|reflexivity]. }
  rewrite N, andb_false_r. reflexivity.
Qed.
Lemma not_both solver e T P x t : mixture e T P x -> simple_roots e T P x -> accepted solver e T P x t -> rejected solver e T P x t -> False.
Proof.
  intros HM HD A R. set (o1 := fresh). set (o2 := mkRes 0 0 0 1 0 0 0 (fun _ => 0)).
  destruct (R o1) as (r1 & E1 & G1 & _). destruct (R o2) as (r2 & E2 & G2 & _). rewrite A in E1, E2.
  rewrite (compute_ok noresort (plain t e)) in E1, E2 by (apply HM || exact HD || apply accepts_plain, HD). injection E1 as <-. injection E2 as <-. cbn in G1, G2. rewrite G1 in G2. lra.
Qed.
Theorem C104_refuted : ~ C104_statement.
Proof.
  intros H. set (solver := (fun _ _ _ _ _ => []) : Solver). pose proof three_w3 as T3. pose proof eps_pos.
  destruct (H solver w3 100 100 x1) as (t & A & R & V); [intros O; unfold one_root, three_roots in *; lra|apply mixture_w3|apply simple_w3|].
  destruct (liquid_w3 solver) as [A' R']. destruct t.
  - apply (not_both solver w3 100 100 x1 Vapor mixture_w3 simple_w3 A R').
  - unfold above_covolume in V. rewrite value_plain in V by (apply mixture_w3 || apply simple_w3). change (bmix (plain Liquid w3) x1) with (bmix w3 x1) in V. rewrite bmix_w3 in V.
    change (Zsel (plain Liquid w3) 100 100 x1) with (Zsel w3 100 100 x1) in V. pose proof negative_root. pose proof gasR_pos. replace (gasR * 100 / 100) with gasR in V by field. nra.
Qed.
Print Assumptions C104_refuted.
(* The method of the isothermal compressibility always fails. *)
Theorem C104_compressibility e T P x t old : mixture e T P x -> simple_roots e T P x -> compute noresort (withMethod CompressibilityMethod t e) old T P x = Err.
Proof.
  intros HM HD. assert (SE : Sum (nspecies e) x = 1) by apply HM. unfold compute. cbn [nspecies withMethod]. rewrite (not_all_nonpositive _ _ SE). cbn zeta.
  pose proof (root_ok t _ _ _ HD) as K. change (eos_beta e T P x) with (beta_ e T P x) in K. change (eos_q e T x) with (q_ e T x) in K.
  cbn [model withMethod fluidtype]. change (beta_ (withMethod CompressibilityMethod t e) T P x) with (beta_ e T P x). change (q_ (withMethod CompressibilityMethod t e) T x) with (q_ e T x).
  destruct (cardano _ _ _) as [r| |]; cbn [bind] in *; try discriminate. rewrite K. reflexivity.
Qed.
Print Assumptions C104_compressibility.
(* The activity of a gas is its fugacity in bar. *)
Theorem C104_activity r P x k : 0 < P -> 0 < x k -> exp (ac_ln_a (activity r P x) k) = exp (ln_phi (ac_res (activity r P x)) k) * x k * (P / 100000).
Proof.
  intros HP Hx. cbn. rewrite !exp_plus. rewrite exp_ln by exact Hx. rewrite exp_ln; [|lra]. unfold Rdiv. ring_simplify. lra.
Qed.
Print Assumptions C104_activity.

(* ---- Cases ---- *)
Lemma eps_small' : eps < 1 / 1000000.
Proof. unfold eps. apply Rmult_lt_reg_r with (2 ^ 52); [apply pow_lt; lra|]. rewrite Rmult_assoc, Rinv_l by (apply pow_nonzero; lra). lra. Qed.
(* A van der Waals fluid below its critical temperature: spinodal volumes 2 b and (3 + sqrt 5) b. *)
Definition vdwsolver : Solver := fun _ _ _ _ _ => [0; 2 * gasR; (3 - sqrt 5) * gasR; (3 + sqrt 5) * gasR].
Lemma exact_w1 : exact vdwsolver w1 (27 / 4) x1.
Proof.
  unfold exact, solves, vdwsolver. cbn zeta. intros c3 c2 c1 c0 H V. rewrite <- H. rewrite bmix_w1, amix_w1. cbn [model w1 epsilon_ sigma_]. pose proof gasR_pos as G. set (g := gasR) in *. clearbody g.
  assert (S5 : sqrt 5 * sqrt 5 = 5) by (apply sqrt_sqrt; lra). set (s := sqrt 5) in *. clearbody s.
  assert (E : g * (27 / 4) * (V + 0 * g) ^ 2 * (V + 0 * g) ^ 2 - 27 * g * g * (2 * V + 0 * g + 0 * g) * (V - g) ^ 2 =
    27 / 4 * g * (V * (V - 2 * g) * ((V - 3 * g) ^ 2 - s * s * g ^ 2))). { rewrite S5. field. }
  rewrite E. replace ((V - 3 * g) ^ 2 - s * s * g ^ 2) with ((V - (3 - s) * g) * (V - (3 + s) * g)) by ring. split.
  - cbn [In]. intros [<-|[<-|[<-|[<-|[]]]]]; ring.
  - intros K. cbn [In]. apply Rmult_integral in K as [K|K]; [lra|]. apply Rmult_integral in K as [K|K]; [apply Rmult_integral in K as [K|K]|apply Rmult_integral in K as [K|K]].
    + left. lra. + right. left. lra. + right. right. left. lra. + right. right. right. left. lra.
Qed.
Lemma q_w1' : q_ w1 (27 / 4) x1 = 4. Proof. pose proof gasR_pos. unfold q_. rewrite bmix_w1, amix_w1. field. lra. Qed.
Lemma beta_w1' P : beta_ w1 (27 / 4) P x1 = P * (4 / 27). Proof. pose proof gasR_pos. unfold beta_. rewrite bmix_w1. field. lra. Qed.
Lemma mixture_w1' P : 0 < P -> mixture w1 (27 / 4) P x1.
Proof.
  intros HP. pose proof a27_pos as A. split; [lra|]. split; [exact HP|]. split; [intros k _; cbn; lra|]. split; [intros k _; unfold x1; lra|]. split; [unfold x1; cbn; ring|].
  split; [intros k Hk; cbn in Hk; destruct k; [rewrite a_w1; exact A|lia]|rewrite amix_w1; lra].
Qed.
Example C104_nonvacuous_one : exact vdwsolver w1 (27 / 4) x1 /\ mixture w1 (27 / 4) (27 / 4) x1 /\ one_root w1 (27 / 4) (27 / 4) x1 /\ spinodal w1 (27 / 4) x1 (2 * gasR).
Proof.
  split; [apply exact_w1|]. split; [apply mixture_w1'; lra|]. pose proof eps_small. split.
  - unfold one_root. change (eos_beta w1 (27 / 4) (27 / 4) x1) with (beta_ w1 (27 / 4) (27 / 4) x1). change (eos_q w1 (27 / 4) x1) with (q_ w1 (27 / 4) x1). rewrite beta_w1', q_w1'. cbn [model w1 epsilon_ sigma_].
    assert (1 < disc 0 0 (27 / 4 * (4 / 27)) 4) by (unfold disc, discriminant, realCubic, cA, cB, cC; lra). lra.
  - apply (spinodals_spec vdwsolver w1 (27 / 4) (27 / 4) x1 exact_w1); [apply mixture_w1'; lra|]. rewrite filter_In. split; [cbn; right; left; reflexivity|]. rewrite bmix_w1. pose proof gasR_pos. destruct (Rlt_dec (2 * gasR) gasR); [lra|reflexivity].
Qed.
Example C104_nonvacuous_three : mixture w1 (27 / 4) (27 / 64) x1 /\ three_roots w1 (27 / 4) (27 / 64) x1 /\ above_covolume noresort (plain Liquid w1) (27 / 4) (27 / 64) x1.
Proof.
  assert (M : mixture w1 (27 / 4) (27 / 64) x1) by (apply mixture_w1'; lra). assert (T3 : three_roots w1 (27 / 4) (27 / 64) x1).
  { unfold three_roots. change (eos_beta w1 (27 / 4) (27 / 64) x1) with (beta_ w1 (27 / 4) (27 / 64) x1). change (eos_q w1 (27 / 4) x1) with (q_ w1 (27 / 4) x1). rewrite beta_w1', q_w1'. cbn [model w1 epsilon_ sigma_].
    assert (disc 0 0 (27 / 64 * (4 / 27)) 4 < - (1 / 100000)) by (unfold disc, discriminant, realCubic, cA, cB, cC; lra). pose proof eps_small'. lra. }
  split; [exact M|]. split; [exact T3|]. apply C92_van_der_waals_partial; [reflexivity|change (0 < amix w1 (27 / 4) x1); rewrite amix_w1; apply a27_pos|exact M|apply simple_three, T3|apply accepts_plain, simple_three, T3].
Qed.
