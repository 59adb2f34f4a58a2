(** Convergence of the iterations of nonlinear time steps: C110 (Newmark), C111 (implicit Euler). *)
From Verif Require Import VS Status RunTac Static Dynamic DynRun Props_Dynamic Props_Dynamic4 NewtonConv Props_Static6.
Local Open Scope R_scope.

(** The equations of motion at the time [T] are regular within the distance [rho] of [U]: all callbacks
    answer, mass, damping and tangent are linear, mass and damping do not depend on the displacement,
    and the tangent predicts the residual with an error of at most [gamma] |d|^2. *)
Record regularDyn {S : VS} (p : dprob S) (T : R) (M C : S -> S) (K : S -> S -> S) (r : S -> S) (U : S) (rho gamma : R) : Prop := {
  rd_mass : dp_mass p T = Yes M; rd_M : linear M; rd_C : linear C;
  rd_damp : forall u, norm (u -v U) <= rho -> dp_damp p u T = Yes C;
  rd_jac : forall u, norm (u -v U) <= rho -> dp_jac p u T = Yes (K u) /\ linear (K u);
  rd_res : forall u, norm (u -v U) <= rho -> dp_res p u T = Yes (r u);
  rd_tan : forall u d, norm (u -v U) <= rho -> norm (u +v d -v U) <= rho -> norm (r (u +v d) -v (r u -v K u d)) <= gamma * (norm d * norm d) }.

Section Newmark.
Context {S : VS}.
Variables (p : dprob S) (o : dopts) (M C : S -> S) (K : S -> S -> S) (r : S -> S) (t dt : R) (Up Vp x0 : S) (beta gamma h : R).
Notation a := (do_alpha o). Notation b := (do_delta o).
Let q := a * dt * dt.
(** the operator of the step at the displacement u *)
Definition nmOp (u : S) : S -> S := fun x => M x +v (b * dt) *v C x +v (dt * dt * a) *v K u x.
(** the equation of motion for the acceleration A *)
Definition nmRes (A : S) : S := r (Up +v q *v A) -v C (Vp +v (b * dt) *v A) -v M A.
Hypothesis Hx : x0 <> v0.
Hypothesis Hb : 0 <= beta. Hypothesis Hgm : 0 <= gamma.
Hypothesis Hh : beta * (gamma * (q * q)) * norm x0 <= h <= 1/4.
Hypothesis RG : regularDyn p (t + dt) M C K r Up (Rabs q * (4/3 * norm x0)) gamma.
Hypothesis SV : forall u f, norm (u -v Up) <= Rabs q * (4/3 * norm x0) -> exists d, dp_solve p (nmOp u) f = Some d /\ nmOp u d = f /\ norm d <= beta * norm f.
Hypothesis HQ : do_quasi o = false.

Lemma g_pos : 0 <= gamma * (q * q).
Proof. apply Rmult_le_pos; [exact Hgm|]. apply Rle_0_sqr. Qed.
Lemma nm_ball A : norm A <= 4/3 * norm x0 -> norm (Up +v q *v A -v Up) <= Rabs q * (4/3 * norm x0).
Proof. intros H. replace (Up +v q *v A -v Up) with (q *v A) by vring. rewrite norm_scale. apply Rmult_le_compat_l; [apply Rabs_pos|exact H]. Qed.
(** one solve removes the linear part of the residual *)
Lemma nm_newton A d : norm A <= 4/3 * norm x0 -> nmOp (Up +v q *v A) d = nmRes A -> norm (A +v d) <= 4/3 * norm x0 ->
  norm (nmRes (A +v d)) <= gamma * (q * q) * (norm d * norm d).
Proof.
  intros HA HD HN. pose proof (nm_ball A HA) as B1. pose proof (nm_ball _ HN) as B2.
  assert (E : Up +v q *v (A +v d) = Up +v q *v A +v q *v d) by vring.
  pose proof (rd_M _ _ _ _ _ _ _ _ _ RG) as LM. pose proof (rd_C _ _ _ _ _ _ _ _ _ RG) as LC.
  destruct (rd_jac _ _ _ _ _ _ _ _ _ RG _ B1) as [_ LK].
  pose proof (rd_tan _ _ _ _ _ _ _ _ _ RG (Up +v q *v A) (q *v d) B1 ltac:(rewrite <- E; exact B2)) as TY.
  rewrite norm_scale in TY. replace (gamma * (q * q) * (norm d * norm d)) with (gamma * (Rabs q * norm d * (Rabs q * norm d))).
  2:{ replace (Rabs q * norm d * (Rabs q * norm d)) with (Rabs q * Rabs q * (norm d * norm d)) by ring. rewrite <- Rabs_mult, Rabs_pos_eq by apply Rle_0_sqr. ring. }
  eapply Rle_trans; [|exact TY]. apply Req_le. f_equal.
  rewrite (lin_scale _ LK). unfold nmRes. rewrite E.
  assert (HR : r (Up +v q *v A) = nmOp (Up +v q *v A) d +v C (Vp +v (b * dt) *v A) +v M A) by (rewrite HD; unfold nmRes; vring).
  rewrite HR. unfold nmOp. lin LC. lin LM. unfold q. vring.
Qed.
(** the state in which pass number i starts *)
Definition at_ (A : S) (s : xst S) : Prop := x_A s = A /\ x_V s = Vp +v (b * dt) *v A /\ x_U s = Up +v q *v A.
Lemma nm_body n i A d r0 C0 K0 s : at_ A s -> norm A <= 4/3 * norm x0 -> norm (A +v d) <= 4/3 * norm x0 -> dp_solve p (nmOp (Up +v q *v A)) (nmRes A) = Some d ->
  exists s', at_ (A +v d) s' /\ x_inv s' = x_inv s /\
  newmarkLoop p o t dt M r0 (Datatypes.S n) i C0 K0 (nmRes A) s =
  if Rltb (if Reqb (norm (A +v d)) 0 then norm d else norm d / norm (A +v d)) (do_tolU o) && Rltb (norm (nmRes (A +v d)) / r0) (do_tolF o)
  then Done (Fin Success) s' else newmarkLoop p o t dt M r0 n (Datatypes.S i) C (K (Up +v q *v A)) (nmRes (A +v d)) s'.
Proof.
  intros (EA & EV & EU) BA BD SD. pose proof (nm_ball A BA) as B1. pose proof (nm_ball _ BD) as B2.
  exists (mkX (Up +v q *v (A +v d)) (Vp +v (b * dt) *v (A +v d)) (A +v d) (x_inv s)). split; [repeat split|]. split; [reflexivity|].
  cbn [newmarkLoop]. unfold badMod, renew. rewrite HQ. cbn [andb negb orb]. rewrite EU, (rd_damp _ _ _ _ _ _ _ _ _ RG _ B1). cbn [ask rbind].
  rewrite EU, (proj1 (rd_jac _ _ _ _ _ _ _ _ _ RG _ B1)). cbn [ask rbind]. unfold nmOp in SD. rewrite SD. rewrite EA, EV, EU.
  assert (E1 : Up +v q *v A +v (a * dt * dt) *v d = Up +v q *v (A +v d)) by (unfold q; vring).
  assert (E2 : Vp +v (b * dt) *v A +v (b * dt) *v d = Vp +v (b * dt) *v (A +v d)) by vring.
  rewrite E1, E2, (rd_res _ _ _ _ _ _ _ _ _ RG _ B2). cbn [ask rbind xU xV xA x_U x_V x_A x_inv]. reflexivity.
Qed.
(** from after pass number k on, with n more passes allowed *)
Lemma nm_loop N r0 : 3/2 * h ^ (2 ^ (N - 1) - 1) < do_tolU o -> h ^ (2 ^ N - 1) < do_tolF o -> 0 < r0 -> norm x0 <= beta * r0 ->
  forall n k A d i C0 K0 s, near nmRes x0 (gamma * (q * q)) h k A d -> at_ A s -> (k < N - 1)%nat -> (N <= Datatypes.S k + n)%nat ->
  exists s' k' A' d', newmarkLoop p o t dt M r0 n i C0 K0 (nmRes A) s = Done (Fin Success) s' /\ (k' < N)%nat /\ near nmRes x0 (gamma * (q * q)) h k' A' d' /\ at_ A' s' /\ x_inv s' = x_inv s.
Proof.
  intros TU TF R0 R1 n. induction n as [|n IH]; intros k A d i C0 K0 s NR AT Hk Hn; [lia|].
  pose proof (near_ball _ _ _ _ _ _ _ NR) as BA.
  destruct (SV _ (nmRes A) (nm_ball A BA)) as (e & SE & ME & NE).
  pose proof (near_next nmRes x0 beta _ h Hb g_pos Hh k A d e NR NE (nm_newton A e BA ME)) as NR'.
  destruct (nm_body n i A e r0 C0 K0 s AT BA (near_ball _ _ _ _ _ _ _ NR') SE) as (s' & AT' & EI & EQ). rewrite EQ.
  destruct (_ && _)%bool eqn:T.
  - exists s', (Datatypes.S k), (A +v e), e. split; [reflexivity|]. split; [lia|]. auto.
  - destruct (Nat.eq_dec (Datatypes.S k) (N - 1)) as [EN|NN].
    + exfalso. apply Bool.andb_false_iff in T. destruct T as [T|T]; apply Rltb_false in T.
      * pose proof (near_test nmRes x0 beta _ h Hb g_pos Hh (Datatypes.S k) (A +v e) e v0 (do_tolU o) Hx ltac:(replace (v0 +v x0) with x0 by vring; lra) NR' ltac:(rewrite EN; exact TU)) as Q.
        replace (v0 +v (A +v e)) with (A +v e) in Q by vring. unfold Reqb in T. destruct (Req_EM_T _ _); lra.
      * pose proof (near_res nmRes x0 beta _ h Hb g_pos Hh (Datatypes.S k) (A +v e) e r0 ltac:(lra) R1 NR') as Q. replace (Datatypes.S (Datatypes.S k)) with N in Q by lia.
        assert (norm (nmRes (A +v e)) / r0 <= h ^ (2 ^ N - 1)); [|lra]. apply (Rmult_le_reg_r r0); [exact R0|]. unfold Rdiv. rewrite Rmult_assoc, Rinv_l, Rmult_1_r by lra. exact Q.
    + destruct (IH (Datatypes.S k) _ e (Datatypes.S i) C (K (Up +v q *v A)) s' NR' AT' ltac:(lia) ltac:(lia)) as (s2 & k' & A' & d' & E2 & Q1 & Q2 & Q3 & Q4).
      exists s2, k', A', d'. rewrite Q4, EI. auto.
Qed.
(** the pass that starts from acceleration zero *)
Lemma nm_first N n s : (1 <= N <= n)%nat -> 3/2 * h ^ (2 ^ (N - 1) - 1) < do_tolU o -> h ^ (2 ^ N - 1) < do_tolF o ->
  dp_solve p (nmOp Up) (nmRes v0) = Some x0 -> at_ v0 s -> 0 < norm (nmRes v0) ->
  exists s' k' A' d', newmarkLoop p o t dt M (norm (nmRes v0)) n 0 C (fun x => x) (nmRes v0) s = Done (Fin Success) s' /\ (k' < N)%nat /\
    near nmRes x0 (gamma * (q * q)) h k' A' d' /\ at_ A' s' /\ x_inv s' = x_inv s /\ norm x0 <= beta * norm (nmRes v0).
Proof.
  intros [N1 N2] TU TF HS AT RP. destruct n as [|n]; [lia|]. pose proof (cX_pos x0 Hx) as XP.
  assert (Z : Up +v q *v v0 = Up) by vring. assert (B0 : norm (v0 : S) <= 4/3 * norm x0) by (rewrite norm_0; lra).
  pose proof (nm_ball _ B0) as B1. destruct (SV _ (nmRes v0) B1) as (e & SE & ME & NE). rewrite Z in SE. rewrite HS in SE. injection SE as <-.
  assert (E0 : v0 +v x0 = x0) by vring.
  assert (NR : near nmRes x0 (gamma * (q * q)) h 0 x0 x0) by (apply near_first; rewrite <- E0 at 1; apply nm_newton; [exact B0|exact ME|rewrite E0; lra]).
  destruct (nm_body n 0 v0 x0 (norm (nmRes v0)) C (fun x => x) s AT B0 ltac:(rewrite E0; lra) ltac:(rewrite Z; exact HS)) as (s' & AT' & EI & EQ). rewrite EQ. rewrite E0 in *.
  destruct (_ && _)%bool eqn:T.
  - exists s', 0%nat, x0, x0. split; [reflexivity|]. split; [lia|]. auto.
  - destruct (Nat.eq_dec N 1) as [->|NN].
    + exfalso. apply Bool.andb_false_iff in T. destruct T as [T|T]; apply Rltb_false in T.
      * pose proof (near_test nmRes x0 beta _ h Hb g_pos Hh 0 x0 x0 v0 (do_tolU o) Hx ltac:(rewrite E0; lra) NR TU) as Q.
        rewrite E0 in Q. unfold Reqb in T. destruct (Req_EM_T _ _); lra.
      * pose proof (near_res nmRes x0 beta _ h Hb g_pos Hh 0 x0 x0 (norm (nmRes v0)) ltac:(lra) NE NR) as Q.
        assert (norm (nmRes x0) / norm (nmRes v0) <= h ^ (2 ^ 1 - 1)); [|lra]. apply (Rmult_le_reg_r (norm (nmRes v0))); [exact RP|]. unfold Rdiv. rewrite Rmult_assoc, Rinv_l, Rmult_1_r by lra. exact Q.
    + destruct (nm_loop N (norm (nmRes v0)) TU TF RP NE n 0 x0 x0 1 C (K (Up +v q *v v0)) s' NR AT' ltac:(lia) ltac:(lia)) as (s2 & k' & A' & d' & E2 & Q1 & Q2 & Q3 & Q4).
      exists s2, k', A', d'. rewrite Q4, EI. auto 6.
Qed.
(** If the equations of motion are regular near the predicted displacement, the first increment x0 of
    the acceleration is small enough (h = beta gamma (alpha dt^2)^2 |x0| <= 1/4), the step answers
    Success after at most N <= MaxIter passes as soon as the tolerances are above h^(2^N - 1) and
    3/2 h^(2^(N-1) - 1); its U, V, A are related by the Newmark formulas and the equation of motion
    at t + dt holds up to h^(2^(k+1) - 1) times its defect at the start, k the number of the last pass. *)
Theorem C110_newmark N s :
  Up = x_U s +v dt *v x_V s +v ((1/2 - a) * dt * dt) *v x_A s -> Vp = x_V s +v ((1 - b) * dt) *v x_A s ->
  dp_solve p (fun x => M x +v (b * dt) *v C x +v (dt * dt * a) *v K Up x) (r Up -v C Vp) = Some x0 ->
  (1 <= N <= do_maxIt o)%nat -> 3/2 * h ^ (2 ^ (N - 1) - 1) < do_tolU o -> h ^ (2 ^ N - 1) < do_tolF o ->
  exists s' k, newmarkNL p o t dt s = Done (Fin Success) s' /\ (k < N)%nat /\
    x_U s' = Up +v (a * dt * dt) *v x_A s' /\ x_V s' = Vp +v (b * dt) *v x_A s' /\ norm (x_A s') <= 4/3 * norm x0 /\
    norm (r (x_U s') -v C (x_V s') -v M (x_A s')) <= h ^ (2 ^ Datatypes.S k - 1) * norm (r Up -v C Vp).
Proof.
  intros EU EV HS HN TU TF. pose proof (cX_pos x0 Hx) as XP.
  pose proof (rd_M _ _ _ _ _ _ _ _ _ RG) as LM.
  assert (Z : Up +v q *v v0 = Up) by vring. assert (Z2 : Vp +v (b * dt) *v v0 = Vp) by vring. 
  assert (G0 : nmRes v0 = r Up -v C Vp) by (unfold nmRes; rewrite Z, Z2, (lin_0 LM); vring).
  assert (B0 : norm (v0 : S) <= 4/3 * norm x0) by (rewrite norm_0; lra). pose proof (nm_ball _ B0) as B1. rewrite Z in B1.
  assert (RP : 0 < norm (nmRes v0)).
  { destruct (SV _ (nmRes v0) B1) as (e & SE & _ & NE). rewrite G0 in SE. unfold nmOp in SE. rewrite HS in SE. injection SE as <-.
    pose proof (norm_pos (nmRes v0)). destruct (Req_dec (norm (nmRes v0)) 0) as [E|E]; [rewrite E in NE|]; lra. }
  destruct (nm_first N (do_maxIt o) (xV (Vp +v (b * dt) *v v0) (xU (Up +v q *v v0) (xA v0 s))) HN TU TF ltac:(rewrite G0; exact HS) ltac:(repeat split) RP) as (s' & k & A' & d' & E & Hk & NR & (A1 & A2 & A3) & EI & NE).
  exists s', k. split.
  - unfold newmarkNL. rewrite <- EU, <- EV. rewrite (rd_mass _ _ _ _ _ _ _ _ _ RG). cbn [ask rbind].
    change (a * dt * dt) with q. rewrite Z, Z2 in *. rewrite (rd_damp _ _ _ _ _ _ _ _ _ RG _ B1). cbn [ask rbind]. rewrite (rd_res _ _ _ _ _ _ _ _ _ RG _ B1). cbn [ask rbind].
    replace (r Up -v C Vp -v M v0) with (nmRes v0) by (rewrite G0, (lin_0 LM); vring). rewrite (proj2 (Reqb_false _ _)) by lra. exact E.
  - split; [exact Hk|]. rewrite A1, A2, A3. split; [reflexivity|]. split; [reflexivity|]. split; [exact (near_ball _ _ _ _ _ _ _ NR)|].
    rewrite <- G0. exact (near_res nmRes x0 beta _ h Hb g_pos Hh k A' d' (norm (nmRes v0)) ltac:(lra) NE NR).
Qed.
End Newmark.
Print Assumptions C110_newmark.
(** Duffing's spring u'' + u + u^3 = 0 *)
Definition duffing : dprob VS_R :=
  let p := osc2 1 0 1 (fun _ => 0) in
  mkDP (S := VS_R) (dp_mass p) (dp_damp p) (fun u _ => Yes (fun x => (1 + 3 * u * u) * x)) (dp_force p) (fun u _ => Yes (- u - u * u * u)) true (dp_solve p) (dp_inv p) (dp_gmres p).
Definition fine : dopts := mkDO (1/4) (1/2) 1 (1/10000) (1/1000000000) 3 false 1.
Lemma duff_tan c u d : 0 <= u <= c / 3 -> 0 <= u + d <= c / 3 ->
  norm (@vsub VS_R (- (u + d) - (u + d) * (u + d) * (u + d)) (@vsub VS_R (- u - u * u * u) ((1 + 3 * u * u) * d))) <= c * (norm (d : VS_R) * norm (d : VS_R)).
Proof.
  intros Hu Hd. rewrite !norm_R.
  match goal with |- Rabs ?x <= _ => replace x with (- ((2 * u + (u + d)) * (d * d))) by (cbn; ring) end. rewrite Rabs_Ropp, !Rabs_mult.
  apply Rmult_le_compat_r; [apply Rmult_le_pos; apply Rabs_pos|]. rewrite Rabs_pos_eq by lra. lra.
Qed.
(** from u = 1, v = 0, a = -2 with dt = 1/2: the prediction is 7/8, x0 = -1582/1235, h < 1/50; three
    passes are enough for the tolerances 10^-4 and 10^-9 *)
Example C110_example : exists s, newmarkNL duffing fine 0 (1/2) (mkX (S := VS_R) 1 0 (-2) None) = Done (Fin Success) s /\
  x_U s = 7/8 + x_A s / 16 /\ Rabs (- x_U s - x_U s * x_U s * x_U s - x_A s) <= 791/512 * (1/50).
Proof.
  set (r := fun u : VS_R => - u - u * u * u : VS_R). set (x0 := (-1582/1235) : R).
  assert (X0 : norm (x0 : VS_R) = 1582/1235) by (rewrite norm_R; unfold x0, Rabs; destruct (Rcase_abs _); lra).
  assert (AQ : do_alpha fine * (1/2) * (1/2) = 1/16) by (cbn; lra). assert (AA : Rabs (1/16) = 1/16) by (apply Rabs_pos_eq; lra).
  assert (IB : forall u : VS_R, norm (u -v (7/8 : VS_R)) <= Rabs (1/16) * (4/3 * norm (x0 : VS_R)) -> 3/4 <= u <= 1).
  { intros u Hu. rewrite AA, X0, norm_R in Hu. cbn in Hu. apply Rabs_both in Hu. lra. }
  assert (RG : regularDyn duffing (0 + 1/2) (fun x => 1 * x) (fun x => 0 * x) (fun u x => (1 + 3 * u * u) * x) r (7/8 : VS_R) (Rabs (do_alpha fine * (1/2) * (1/2)) * (4/3 * norm (x0 : VS_R))) 3).
  { rewrite AQ. split; try reflexivity.
    - split; intros; cbn; ring.
    - split; intros; cbn; ring.
    - intros u Hu. split; [reflexivity|split; intros; cbn; ring].
    - intros u d Hu Hd. pose proof (IB u Hu). pose proof (IB _ Hd). apply (duff_tan 3 u d); cbn in *; lra. }
  destruct (C110_newmark duffing fine (fun x => 1 * x) (fun x => 0 * x) (fun u x => (1 + 3 * u * u) * x) r 0 (1/2) (7/8 : VS_R) (-1/2 : VS_R) (x0 : VS_R) 1 3 (1/50)) with (N := 3%nat) (s := mkX (S := VS_R) 1 0 (-2) None) as (s & k & E & Hk & EU & EV & NA & NR).
  - unfold x0. intros H. cbn in H. lra.
  - lra.
  - lra.
  - rewrite AQ, X0. lra.
  - exact RG.
  - rewrite AQ. intros u f Hu. specialize (IB u Hu). exists (f / (1 + (1/16) * (1 + 3 * u * u))). unfold nmOp. cbn.
    assert (Q : 0 <= 3 * u * u) by (repeat apply Rmult_le_pos; lra).
    assert (D : 1 * 1 + 1 / 2 * (1 / 2) * (0 * 1) + 1 / 2 * (1 / 2) * (1 / 4) * ((1 + 3 * u * u) * 1) = 1 + (1/16) * (1 + 3 * u * u)) by lra.
    rewrite !D, (proj2 (Reqb_false _ _)) by lra.
    match goal with |- context [Reqb ?x f] => assert (EX : x = f) by (field; lra) end. rewrite (proj2 (Reqb_true _ _) EX). split; [reflexivity|]. split; [exact EX|].
    rewrite !norm_R. unfold Rdiv. rewrite Rabs_mult, Rmult_comm. apply Rmult_le_compat_r; [apply Rabs_pos|]. rewrite Rabs_pos_eq by (apply Rlt_le, Rinv_0_lt_compat; lra).
    rewrite <- Rinv_1. apply Rinv_le_contravar; lra.
  - reflexivity.
  - cbn. lra.
  - cbn. lra.
  - unfold r, x0. cbn.
    match goal with |- context [Reqb ?x 0] => assert (D : x = 1235/1024) by lra end. rewrite !D, (proj2 (Reqb_false _ _)) by lra.
    match goal with |- context [Reqb ?x ?y] => assert (EX : x = y) by lra end. rewrite (proj2 (Reqb_true _ _) EX). f_equal. lra.
  - cbn. lia.
  - cbn. lra.
  - cbn. lra.
  - exists s. split; [exact E|]. split; [rewrite EU; cbn; lra|].
    assert (P : (1/50) ^ (2 ^ Datatypes.S k - 1) <= 1/50).
    { assert ((2 ^ Datatypes.S k - 1 = 1 + (2 ^ Datatypes.S k - 2))%nat) as -> by (cbn [Nat.pow]; pose proof (Nat.pow_nonzero 2 k ltac:(lia)); lia). rewrite pow_add, pow_1.
      pose proof (pow_incr (1/50) 1 (2 ^ Datatypes.S k - 2) ltac:(lra)) as I. rewrite pow1 in I. lra. }
    rewrite !norm_R in NR. assert (R0 : Rabs (r (7/8) -v (0 * (-1/2) : VS_R)) = 791/512) by (unfold r; cbn; unfold Rabs; destruct (Rcase_abs _); lra). rewrite R0 in NR.
    assert (L : Rabs (- x_U s - x_U s * x_U s * x_U s - x_A s) <= (1/50) ^ (2 ^ Datatypes.S k - 1) * (791/512)) by (eapply Rle_trans; [|exact NR]; apply Req_le; f_equal; unfold r; cbn; ring). lra.
Qed.

(** ** C111 *)
Section Implicit.
Context {S : VS}.
Notation SS := (VS_prod S S).
Variables (p : dprob S) (o : dopts) (M C : S -> S) (K : S -> S -> S) (r : S -> S) (t dt : R) (U0 V0 : S) (x0 : SS) (beta gamma h : R).
(** the equations of the step for the increment D of (U, V) *)
Definition ieRes (D : SS) : SS :=
  (dt *v (V0 +v snd D) -v fst D, dt *v r (U0 +v fst D) -v dt *v C (V0 +v snd D) -v M (snd D)).
Hypothesis Hx : x0 <> v0.
Hypothesis Hb : 0 <= beta. Hypothesis Hgm : 0 <= gamma.
Hypothesis Hh : beta * (Rabs dt * gamma) * norm x0 <= h <= 1/4.
Hypothesis RG : regularDyn p (t + dt) M C K r U0 (4/3 * norm x0) gamma.
Hypothesis RT : forall u, norm (u -v U0) <= 4/3 * norm x0 -> dp_res p u t = Yes (r u).
Hypothesis SV : forall u f, norm (u -v U0) <= 4/3 * norm x0 -> exists d, dp_gmres p (euMat dt M C (K u)) f = Some d /\ euMat dt M C (K u) d = f /\ norm d <= beta * norm f.
Hypothesis HQ : do_quasi o = false.
(** the first pass does not bring (U, V) close to zero *)
Hypothesis HX : norm x0 <= norm (@vadd SS (U0, V0) x0).
Lemma ig_pos : 0 <= Rabs dt * gamma.
Proof. apply Rmult_le_pos; [apply Rabs_pos|exact Hgm]. Qed.
Lemma norm_fst (x : SS) : norm (fst x) <= norm x.
Proof. unfold norm. apply sqrt_le_1_alt. cbn. pose proof (dot_pos S (snd x)). lra. Qed.
Lemma norm_snd (x : S) : norm ((v0, x) : SS) = norm x.
Proof. unfold norm. f_equal. cbn. autorewrite with dot. lra. Qed.
Lemma ie_ball (D : SS) : norm D <= 4/3 * norm x0 -> norm (U0 +v fst D -v U0) <= 4/3 * norm x0.
Proof. intros H. replace (U0 +v fst D -v U0) with (fst D) by vring. pose proof (norm_fst D). lra. Qed.
Lemma ie_newton (D d : SS) : norm D <= 4/3 * norm x0 -> euMat dt M C (K (U0 +v fst D)) d = ieRes D -> norm (D +v d) <= 4/3 * norm x0 ->
  norm (ieRes (D +v d)) <= Rabs dt * gamma * (norm d * norm d).
Proof.
  intros HD HE HN. pose proof (ie_ball D HD) as B1. pose proof (ie_ball _ HN) as B2.
  pose proof (rd_M _ _ _ _ _ _ _ _ _ RG) as LM. pose proof (rd_C _ _ _ _ _ _ _ _ _ RG) as LC.
  assert (E : U0 +v fst (D +v d) = U0 +v fst D +v fst d) by (cbn; vring).
  pose proof (rd_tan _ _ _ _ _ _ _ _ _ RG (U0 +v fst D) (fst d) B1 ltac:(rewrite <- E; exact B2)) as TY.
  assert (Q : norm (fst d) * norm (fst d) <= norm d * norm d) by (pose proof (norm_fst d); pose proof (norm_pos (fst d)); apply Rmult_le_compat; assumption).
  assert (F : ieRes (D +v d) = (v0, dt *v (r (U0 +v fst D +v fst d) -v (r (U0 +v fst D) -v K (U0 +v fst D) (fst d))))).
  { unfold euMat, ieRes in HE. injection HE as H1 H2. unfold ieRes. rewrite E. cbn [fst snd vadd VS_prod vec]. f_equal.
    - transitivity ((dt *v (V0 +v snd D) -v fst D) -v (fst d -v dt *v snd d)); [cbn; vring|rewrite H1; vring].
    - transitivity (dt *v r (U0 +v fst D +v fst d) -v dt *v C (V0 +v (snd D +v snd d)) -v M (snd D +v snd d)); [reflexivity|].
      match type of H2 with _ = ?y => transitivity (dt *v r (U0 +v fst D +v fst d) -v dt *v C (V0 +v (snd D +v snd d)) -v M (snd D +v snd d) -v y +v (dt *v K (U0 +v fst D) (fst d) +v M (snd d) +v dt *v C (snd d))); [rewrite H2; vring|] end.
      lin LC. lin LM. vring. }
  rewrite F, norm_snd, norm_scale, Rmult_assoc. apply Rmult_le_compat_l; [apply Rabs_pos|]. eapply Rle_trans; [exact TY|]. apply Rmult_le_compat_l; assumption.
Qed.
(** the state in which pass number i starts *)
Definition iat (D : SS) (s : xst S) : Prop := x_U s = U0 +v fst D /\ x_V s = V0 +v snd D.
Lemma ie_body n i (D d : SS) r0 C0 K0 s : iat D s -> norm D <= 4/3 * norm x0 -> norm (D +v d) <= 4/3 * norm x0 -> dp_gmres p (euMat dt M C (K (U0 +v fst D))) (ieRes D) = Some d ->
  exists s', iat (D +v d) s' /\ x_inv s' = x_inv s /\ x_A s' = x_A s /\
  implicitLoop p o t dt M U0 V0 r0 (Datatypes.S n) i C0 K0 (r (U0 +v fst D)) s =
  if Rltb (if Reqb (norm (@vadd SS (U0, V0) (D +v d))) 0 then norm d else norm d / norm (@vadd SS (U0, V0) (D +v d))) (do_tolU o) && Rltb (norm (ieRes D) / r0) (do_tolF o)
  then Done (Fin Success) s' else implicitLoop p o t dt M U0 V0 r0 n (Datatypes.S i) C (K (U0 +v fst D)) (r (U0 +v fst (D +v d))) s'.
Proof.
  intros (EU & EV) BA BD SD. pose proof (ie_ball D BA) as B1. pose proof (ie_ball _ BD) as B2.
  pose proof (rd_M _ _ _ _ _ _ _ _ _ RG) as LM.
  exists (mkX (U0 +v fst (D +v d)) (V0 +v snd (D +v d)) (x_A s) (x_inv s)). split; [split; reflexivity|]. split; [reflexivity|]. split; [reflexivity|].
  cbn [implicitLoop]. unfold badMod, renew. rewrite HQ. cbn [andb negb orb]. rewrite EU, (rd_damp _ _ _ _ _ _ _ _ _ RG _ B1). cbn [ask rbind].
  rewrite EU, (proj1 (rd_jac _ _ _ _ _ _ _ _ _ RG _ B1)). cbn [ask rbind]. rewrite EU, EV.
  set (rhs := (U0 +v fst D -v U0 -v dt *v (V0 +v snd D), M (V0 +v snd D -v V0) +v dt *v C (V0 +v snd D) +v dt *v vopp (r (U0 +v fst D))) : SS).
  assert (E1 : vopp rhs = ieRes D).
  { unfold rhs, ieRes. cbn. replace (V0 +v snd D -v V0) with (snd D) by vring. f_equal; vring. }
  assert (E2 : norm rhs = norm (ieRes D)) by (rewrite <- E1; symmetry; apply norm_opp).
  assert (E3 : @vadd SS (U0 +v fst D, V0 +v snd D) d = @vadd SS (U0, V0) (D +v d)) by (cbn; f_equal; vring).
  rewrite E1, SD, E2, E3.
  assert (RR : dp_res p (fst (@vadd SS (U0, V0) (D +v d))) t = Yes (r (U0 +v fst (D +v d)))) by (exact (RT _ B2)).
  rewrite RR. cbn [ask rbind]. reflexivity.
Qed.
(** from after pass number k on, with n more passes allowed *)
Notation nr := (near ieRes x0 (Rabs dt * gamma) h).
Lemma ie_loop N r0 : 3/2 * h ^ (2 ^ (N - 1) - 1) < do_tolU o -> h ^ (2 ^ (N - 1) - 1) < do_tolF o -> 0 < r0 -> norm x0 <= beta * r0 ->
  forall n k (D d : SS) i C0 K0 s, nr k D d -> iat D s -> (k < N - 1)%nat -> (N <= Datatypes.S k + n)%nat ->
  exists s' k' D' d', implicitLoop p o t dt M U0 V0 r0 n i C0 K0 (r (U0 +v fst D)) s = Done (Fin Success) s' /\ (k' < N)%nat /\ nr k' D' d' /\ iat D' s' /\ x_A s' = x_A s.
Proof.
  intros TU TF R0 R1 n. induction n as [|n IH]; intros k D d i C0 K0 s NR AT Hk Hn; [lia|].
  pose proof (near_ball _ _ _ _ _ _ _ NR) as BA.
  destruct (SV _ (ieRes D) (ie_ball D BA)) as (e & SE & ME & NE).
  pose proof (near_next ieRes x0 beta _ h Hb ig_pos Hh k D d e NR NE (ie_newton D e BA ME)) as NR'.
  destruct (ie_body n i D e r0 C0 K0 s AT BA (near_ball _ _ _ _ _ _ _ NR') SE) as (s' & AT' & EI & EA & EQ). rewrite EQ.
  destruct (_ && _)%bool eqn:T.
  - exists s', (Datatypes.S k), (D +v e), e. split; [reflexivity|]. split; [lia|]. auto.
  - destruct (Nat.eq_dec (Datatypes.S k) (N - 1)) as [EN|NN].
    + exfalso. apply Bool.andb_false_iff in T. destruct T as [T|T]; apply Rltb_false in T.
      * pose proof (near_test ieRes x0 beta _ h Hb ig_pos Hh (Datatypes.S k) (D +v e) e (U0, V0) (do_tolU o) Hx HX NR' ltac:(rewrite EN; exact TU)) as Q.
        unfold Reqb in T. destruct (Req_EM_T _ _); lra.
      * pose proof (near_res ieRes x0 beta _ h Hb ig_pos Hh k D d r0 ltac:(lra) R1 NR) as Q. rewrite EN in Q.
        assert (norm (ieRes D) / r0 <= h ^ (2 ^ (N - 1) - 1)); [|lra]. apply (Rmult_le_reg_r r0); [exact R0|]. unfold Rdiv. rewrite Rmult_assoc, Rinv_l, Rmult_1_r by lra. exact Q.
    + destruct (IH (Datatypes.S k) _ e (Datatypes.S i) C (K (U0 +v fst D)) s' NR' AT' ltac:(lia) ltac:(lia)) as (s2 & k' & A' & d' & E2 & Q1 & Q2 & Q3 & Q4).
      exists s2, k', A', d'. rewrite Q4, EA. auto.
Qed.
(** the pass that starts from the old displacement and velocity; its test looks at the residual before
    the pass, so it can only end the loop with TolF > 1 *)
Lemma ie_first N n s : (2 <= N <= n)%nat -> 3/2 * h ^ (2 ^ (N - 1) - 1) < do_tolU o -> h ^ (2 ^ (N - 1) - 1) < do_tolF o ->
  dp_gmres p (euMat dt M C (K U0)) (ieRes v0) = Some x0 -> iat v0 s -> 0 < norm (ieRes v0) ->
  exists s' k' D' d', implicitLoop p o t dt M U0 V0 (norm (ieRes v0)) n 0 C (fun x => x) (r U0) s = Done (Fin Success) s' /\ (k' < N)%nat /\
    nr k' D' d' /\ iat D' s' /\ x_A s' = x_A s /\ norm x0 <= beta * norm (ieRes v0).
Proof.
  intros [N1 N2] TU TF HS AT RP. destruct n as [|n]; [lia|]. pose proof (cX_pos x0 Hx) as XP.
  assert (Z : U0 +v fst (v0 : SS) = U0) by (cbn; vring). assert (B0 : norm (v0 : SS) <= 4/3 * norm x0) by (rewrite norm_0; lra).
  pose proof (ie_ball _ B0) as B1. destruct (SV _ (ieRes v0) B1) as (e & SE & ME & NE). rewrite Z in SE. rewrite HS in SE. injection SE as <-.
  assert (E0 : v0 +v x0 = x0) by vring.
  assert (NR : nr 0 x0 x0) by (apply near_first; rewrite <- E0 at 1; apply ie_newton; [exact B0|exact ME|rewrite E0; lra]).
  destruct (ie_body n 0 v0 x0 (norm (ieRes v0)) C (fun x => x) s AT B0 ltac:(rewrite E0; lra) ltac:(rewrite Z; exact HS)) as (s' & AT' & EI & EA & EQ). rewrite Z in EQ. rewrite EQ. rewrite E0 in *.
  destruct (_ && _)%bool eqn:T.
  - exists s', 0%nat, x0, x0. split; [reflexivity|]. split; [lia|]. auto.
  - destruct (ie_loop N (norm (ieRes v0)) TU TF RP NE n 0 x0 x0 1 C (K U0) s' NR AT' ltac:(lia) ltac:(lia)) as (s2 & k' & A' & d' & E2 & Q1 & Q2 & Q3 & Q4).
    exists s2, k', A', d'. rewrite Q4, EA. auto 6.
Qed.
(** As C110 for implicit Euler with forces that do not depend on time, h = beta gamma dt |x0| <= 1/4: the
    step answers Success after at most N <= MaxIter passes as soon as the tolerances are above
    h^(2^(N-1) - 1) and 3/2 h^(2^(N-1) - 1) - one pass more than Newmark needs, because the tested
    residual is the one before the last increment. *)
Theorem C111_implicitEuler N s :
  x_U s = U0 -> x_V s = V0 ->
  dp_gmres p (euMat dt M C (K U0)) (dt *v V0, dt *v r U0 -v dt *v C V0) = Some x0 ->
  (2 <= N <= do_maxIt o)%nat -> 3/2 * h ^ (2 ^ (N - 1) - 1) < do_tolU o -> h ^ (2 ^ (N - 1) - 1) < do_tolF o ->
  exists s' k, implicitEulerNL p o t dt s = Done (Fin Success) s' /\ (k < N)%nat /\ x_A s' = x_A s /\
    norm (@vsub SS (x_U s', x_V s') (U0, V0)) <= 4/3 * norm x0 /\
    norm ((x_U s' -v U0 -v dt *v x_V s', M (x_V s' -v V0) +v dt *v C (x_V s') -v dt *v r (x_U s')) : SS) <=
      h ^ (2 ^ Datatypes.S k - 1) * norm ((dt *v V0, dt *v r U0 -v dt *v C V0) : SS).
Proof.
  intros EU EV HS HN TU TF. pose proof (cX_pos x0 Hx) as XP.
  pose proof (rd_M _ _ _ _ _ _ _ _ _ RG) as LM.
  assert (Z : U0 +v fst (v0 : SS) = U0) by (cbn; vring). assert (Z2 : V0 +v snd (v0 : SS) = V0) by (cbn; vring).
  assert (G0 : ieRes v0 = (dt *v V0, dt *v r U0 -v dt *v C V0)) by (unfold ieRes; rewrite Z, Z2; cbn; rewrite (lin_0 LM); f_equal; vring).
  assert (B0 : norm (v0 : SS) <= 4/3 * norm x0) by (rewrite norm_0; lra). pose proof (ie_ball _ B0) as B1. rewrite Z in B1.
  assert (RP : 0 < norm (ieRes v0)).
  { destruct (SV _ (ieRes v0) B1) as (e & SE & _ & NE). rewrite G0 in SE. rewrite HS in SE. injection SE as <-.
    pose proof (norm_pos (ieRes v0)). destruct (Req_dec (norm (ieRes v0)) 0) as [E|E]; [rewrite E in NE|]; lra. }
  destruct (ie_first N (do_maxIt o) s HN TU TF ltac:(rewrite G0; exact HS) ltac:(split; rewrite ?Z, ?Z2; assumption) RP) as (s' & k & D' & d' & E & Hk & NR & (A1 & A2) & EA & NE).
  exists s', k. split.
  - unfold implicitEulerNL. rewrite (rd_mass _ _ _ _ _ _ _ _ _ RG). cbn [ask rbind]. rewrite EU, EV.
    rewrite (rd_damp _ _ _ _ _ _ _ _ _ RG _ B1). cbn [ask rbind]. rewrite (rd_res _ _ _ _ _ _ _ _ _ RG _ B1). cbn [ask rbind].
    match goal with |- context [norm ?x] => assert (E2 : @norm SS x = norm (ieRes v0)) by (rewrite <- norm_opp; f_equal; rewrite G0; cbn; f_equal; vring) end.
    rewrite !E2. rewrite (proj2 (Reqb_false _ _)) by lra. exact E.
  - split; [exact Hk|]. split; [exact EA|]. rewrite A1, A2. split.
    + replace (@vsub SS (U0 +v fst D', V0 +v snd D') (U0, V0)) with D' by (destruct D' as [D1 D2]; cbn; f_equal; vring). exact (near_ball _ _ _ _ _ _ _ NR).
    + rewrite <- G0. eapply Rle_trans; [|exact (near_res ieRes x0 beta _ h Hb ig_pos Hh k D' d' (norm (ieRes v0)) ltac:(lra) NE NR)].
      apply Req_le. rewrite <- norm_opp. f_equal. unfold ieRes. cbn. replace (V0 +v snd D' -v V0) with (snd D') by vring. f_equal; vring.
Qed.
End Implicit.
Print Assumptions C111_implicitEuler.
Lemma duff_gmres (u : R) (b : VS_prod VS_R VS_R) : 0 <= u <= 4/3 ->
  let A := euMat (S := VS_R) (1/10) (fun x : VS_R => (1 * x : VS_R)) (fun x : VS_R => (0 * x : VS_R)) (fun x : VS_R => ((1 + 3 * u * u) * x : VS_R)) in
  exists x, dp_gmres duffing A b = Some x /\ A x = b /\ norm x <= 2 * norm b.
Proof.
  intros Hu A. assert (Q : 0 <= u * u <= 16/9) by nra.
  destruct (proj1 (C54_nonlinear_hyps (1/10) 1 0 (1 + 3 * u * u) (fun _ => 0) b ltac:(lra))) as (x & E & F). exists x. split; [exact E|]. split; [exact F|].
  apply Rsqr_incr_0_var; [|apply Rmult_le_pos; [lra|apply norm_pos]]. unfold Rsqr.
  replace (2 * norm b * (2 * norm b)) with (4 * (norm b * norm b)) by ring. rewrite !norm_sq, <- F. destruct x as [y z]. cbn. set (k := u * u) in *.
  assert (0 <= k * ((y + z) * (y + z))) by (apply Rmult_le_pos; [lra|apply Rle_0_sqr]). assert (0 <= k * (y * y)) by (apply Rmult_le_pos; [lra|apply Rle_0_sqr]).
  assert (0 <= k * k * (y * y)) by (apply Rmult_le_pos; [apply Rle_0_sqr|apply Rle_0_sqr]).
  assert (k * (y * y) <= 16/9 * (y * y)) by (apply Rmult_le_compat_r; [apply Rle_0_sqr|lra]). assert (k * (z * z) <= 16/9 * (z * z)) by (apply Rmult_le_compat_r; [apply Rle_0_sqr|lra]).
  pose proof (Rle_0_sqr y). pose proof (Rle_0_sqr z). unfold Rsqr in *. unfold k in *. lra.
Qed.
(** from u = 1, v = 0 with dt = 1/10: x0 = (-1/52, -5/26), h <= 4/25; three passes for 1/100 *)
Definition coarse : dopts := mkDO (1/4) (1/2) 1 (1/100) (1/100) 3 false 1.
Example C111_example : exists s, implicitEulerNL duffing coarse 0 (1/10) (mkX (S := VS_R) 1 0 0 None) = Done (Fin Success) s /\
  Rabs (x_U s - 1 - 1/10 * x_V s) <= 4/125 /\ Rabs (x_V s - 1/10 * (- x_U s - x_U s * x_U s * x_U s)) <= 4/125.
Proof.
  set (r := fun u : VS_R => - u - u * u * u : VS_R). set (x0 := (- (1/52), - (5/26)) : VS_prod VS_R VS_R).
  assert (X2 : norm x0 * norm x0 = 101/2704) by (rewrite norm_sq; unfold x0; cbn; lra). pose proof (norm_pos x0) as XP.
  assert (X0 : norm x0 <= 1/5) by nra.
  assert (IB : forall u : VS_R, norm (u -v (1 : VS_R)) <= 4/3 * norm x0 -> 0 <= u <= 4/3).
  { intros u Hu. rewrite norm_R in Hu. cbn in Hu. apply Rabs_both in Hu. lra. }
  assert (RG : regularDyn duffing (0 + 1/10) (fun x => 1 * x) (fun x => 0 * x) (fun u x => (1 + 3 * u * u) * x) r (1 : VS_R) (4/3 * norm x0) 4).
  { split; try reflexivity.
    - split; intros; cbn; ring.
    - split; intros; cbn; ring.
    - intros u Hu. split; [reflexivity|split; intros; cbn; ring].
    - intros u d Hu Hd. pose proof (IB u Hu). pose proof (IB _ Hd). apply (duff_tan 4 u d); cbn in *; lra. }
  destruct (C111_implicitEuler duffing coarse (fun x => 1 * x) (fun x => 0 * x) (fun u x => (1 + 3 * u * u) * x) r 0 (1/10) (1 : VS_R) (0 : VS_R) x0 2 4 (4/25)) with (N := 3%nat) (s := mkX (S := VS_R) 1 0 0 None) as (s & k & E & Hk & EA & ND & NR).
  - intros H. injection H as H1 H2. cbn in H2. lra.
  - lra.
  - lra.
  - rewrite Rabs_pos_eq by lra. lra.
  - exact RG.
  - reflexivity.
  - intros u f Hu. exact (duff_gmres u f (IB u Hu)).
  - reflexivity.
  - unfold norm. apply sqrt_le_1_alt. unfold x0. cbn. lra.
  - reflexivity.
  - reflexivity.
  - destruct (duff_gmres 1 (1/10 * 0, 1/10 * r 1 - 1/10 * (0 * 0)) ltac:(lra)) as (x & E & F & _). cbv zeta in *.
    match goal with |- dp_gmres _ ?m ?y = _ => replace y with ((1/10 * 0, 1/10 * r 1 - 1/10 * (0 * 0)) : VS_prod VS_R VS_R) by (cbn; f_equal; ring) end.
    rewrite E. f_equal. destruct x as [y z]. unfold euMat in F. cbn in F. injection F as F1 F2. unfold x0, r in *. f_equal; lra.
  - cbn. lia.
  - cbn. lra.
  - cbn. lra.
  - exists s. split; [exact E|].
    assert (P : (4/25) ^ (2 ^ Datatypes.S k - 1) <= 4/25).
    { assert ((2 ^ Datatypes.S k - 1 = 1 + (2 ^ Datatypes.S k - 2))%nat) as -> by (cbn [Nat.pow]; pose proof (Nat.pow_nonzero 2 k ltac:(lia)); lia). rewrite pow_add, pow_1.
      pose proof (pow_incr (4/25) 1 (2 ^ Datatypes.S k - 2) ltac:(lra)) as I. rewrite pow1 in I. lra. }
    match type of NR with _ <= _ * norm ?y => assert (R0 : @norm (VS_prod VS_R VS_R) y <= 1/5) end.
    { apply Rsqr_incr_0_var; [|lra]. unfold Rsqr. rewrite norm_sq. unfold r. cbn. lra. }
    match type of NR with norm ?y <= _ => set (w := y : VS_prod VS_R VS_R) in * end.
    assert (W : norm w <= 4/125). { eapply Rle_trans; [exact NR|]. apply Rle_trans with (4/25 * (1/5)); [|lra]. apply Rmult_le_compat; [apply pow_le; lra|apply norm_pos|exact P|exact R0]. }
    assert (W1 : Rabs (fst w) <= norm w) by (rewrite <- norm_R; apply (norm_fst (S := VS_R) w)).
    assert (W2 : Rabs (snd w) <= norm w) by (unfold norm; rewrite <- sqrt_Rsqr_abs; apply sqrt_le_1_alt; unfold Rsqr; pose proof (Rle_0_sqr (fst w)); unfold Rsqr in *; cbn in *; lra).
    unfold w, r in W1, W2. cbn [fst snd] in W1, W2. split.
    + eapply Rle_trans; [|eapply Rle_trans; [exact W1|exact W]]. apply Req_le. f_equal. cbn. ring.
    + eapply Rle_trans; [|eapply Rle_trans; [exact W2|exact W]]. apply Req_le. f_equal. cbn. ring.
Qed.
