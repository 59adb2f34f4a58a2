(** Convergence of the Newton solver near a solution: C109. *)
From Verif Require Import VS Status RunTac Static StaticRun Props_Static.
Local Open Scope R_scope.

(** The equations of a nonlinear problem at the load [L] are regular within the distance [rho] of
    [U]: residual [r], tangent and factorisation exist, every solve is exact and enlarges the norm by
    at most [beta], and the tangent predicts the residual with an error of at most [gamma] |d|^2. *)
Record regular {S : VS} {Mat : Type} (p : nprob S Mat) (mul : Mat -> S -> S) (r : S -> S) (L : R) (U : S) (rho beta gamma : R) : Prop := {
  rg_nl : np_nl p = true;
  rg_res : forall u, norm (u -v U) <= rho -> np_res p L u = Yes (r u);
  rg_jac : forall u du, norm (u -v U) <= rho -> exists m, np_jac p u du = Yes m /\ np_factor p m = true /\
    (forall f, exists d, np_solve p m f = Some d /\ mul m d = f /\ norm d <= beta * norm f) /\
    (forall d, norm (u +v d -v U) <= rho -> norm (r (u +v d) -v (r u -v mul m d)) <= gamma * (norm d * norm d)) }.

Section Newton.
Context {S : VS} {Mat : Type}.
Variables (p : nprob S Mat) (o : nopts) (mul : Mat -> S -> S) (r : S -> S) (L : R) (U x0 : S) (beta gamma h : R).
Hypothesis Hx : x0 <> v0.
Hypothesis Hb : 0 <= beta. Hypothesis Hgm : 0 <= gamma.
Hypothesis Hh : beta * gamma * norm x0 <= h <= 1/4.
Hypothesis RG : regular p mul r L U (4/3 * norm x0) beta gamma.
Hypothesis Hr : no_relax o = 1.
Let X := norm x0.
Lemma X_pos : 0 < X.
Proof. unfold X. pose proof (norm_pos x0). destruct (Req_dec (norm x0) 0) as [E|E]; [apply norm_zero in E; contradiction|lra]. Qed.
Lemma h_pos : 0 <= h.
Proof. pose proof X_pos. unfold X in *. assert (0 <= beta * gamma * norm x0) by (repeat apply Rmult_le_pos; lra). lra. Qed.
(** after pass number k of the loop *)
Definition passed (k : nat) (s : nst S Mat) : Prop :=
  n_U s = U /\ n_L s = L /\ n_R s = r (U +v n_DU s) /\ n_rnorm s = norm (n_R s) /\ 0 < n_ini s /\ X <= beta * n_ini s /\
  norm (n_dU s) <= h ^ (2 ^ k - 1) * X /\ norm (n_DU s -v x0) + norm (n_dU s) / 3 <= X / 3 /\
  norm (n_R s) <= gamma * (norm (n_dU s) * norm (n_dU s)).
Lemma pass k s : passed k s -> exists s', newtonIteration p o s = Done tt s' /\ passed (Datatypes.S k) s' /\ n_it s' = n_it s /\ n_ini s' = n_ini s /\ n_stat s' = n_stat s.
Proof.
  intros (EU & EL & ER & EN & I0 & I1 & B1 & B2 & B3). pose proof X_pos as XP. pose proof h_pos as HP.
  pose proof (norm_pos (n_dU s)) as P1. pose proof (norm_pos (n_DU s -v x0)) as P2.
  assert (IN : norm (U +v n_DU s -v U) <= 4/3 * norm x0).
  { replace (U +v n_DU s -v U) with ((n_DU s -v x0) +v x0) by vring. eapply Rle_trans; [apply norm_triangle|]. fold X. lra. }
  destruct (rg_jac _ _ _ _ _ _ _ _ RG (U +v n_DU s) (n_dU s) IN) as (m & J & FC & SV & TY).
  destruct (SV (n_R s)) as (d & SD & MD & ND). pose proof (norm_pos d) as P3.
  (* the new increment *)
  assert (P4 : h ^ (2 ^ k - 1) <= 1).
  { rewrite <- (pow1 (2 ^ k - 1)). apply pow_incr. lra. }
  assert (D2 : norm d <= beta * gamma * (norm (n_dU s) * norm (n_dU s))).
  { eapply Rle_trans; [exact ND|]. rewrite Rmult_assoc. apply Rmult_le_compat_l; assumption. }
  assert (DX : norm (n_dU s) <= X) by (eapply Rle_trans; [exact B1|]; rewrite <- (Rmult_1_l X) at 2; apply Rmult_le_compat_r; lra).
  assert (BG : 0 <= beta * gamma) by (apply Rmult_le_pos; assumption).
  assert (D4 : norm d <= norm (n_dU s) / 4).
  { assert (beta * gamma * (norm (n_dU s) * norm (n_dU s)) <= beta * gamma * (X * norm (n_dU s))) by (apply Rmult_le_compat_l; [exact BG|apply Rmult_le_compat_r; lra]).
    assert (beta * gamma * X * norm (n_dU s) <= 1/4 * norm (n_dU s)) by (apply Rmult_le_compat_r; [exact P1|unfold X; lra]). lra. }
  assert (DK : norm d <= h ^ (2 ^ Datatypes.S k - 1) * X).
  { assert (E : (2 ^ Datatypes.S k - 1 = 1 + ((2 ^ k - 1) + (2 ^ k - 1)))%nat) by (cbn [Nat.pow]; pose proof (Nat.pow_nonzero 2 k ltac:(lia)); lia).
    rewrite E, !pow_add, pow_1. set (q := h ^ (2 ^ k - 1)) in *.
    assert (norm (n_dU s) * norm (n_dU s) <= q * X * (q * X)) by (apply Rmult_le_compat; assumption).
    assert (beta * gamma * (norm (n_dU s) * norm (n_dU s)) <= beta * gamma * (q * X * (q * X))) by (apply Rmult_le_compat_l; assumption).
    assert (Q0 : 0 <= q) by (apply pow_le; exact HP).
    assert (beta * gamma * X * (q * q * X) <= h * (q * q * X)) by (apply Rmult_le_compat_r; [repeat apply Rmult_le_pos; lra|unfold X; lra]). lra. }
  set (D := n_DU s +v d).
  assert (B2' : norm (D -v x0) + norm d / 3 <= X / 3).
  { replace (D -v x0) with ((n_DU s -v x0) +v d) by (unfold D; vring). pose proof (norm_triangle (n_DU s -v x0) d). lra. }
  assert (IN' : norm (U +v D -v U) <= 4/3 * norm x0).
  { replace (U +v D -v U) with ((D -v x0) +v x0) by vring. eapply Rle_trans; [apply norm_triangle|]. fold X. lra. }
  assert (RD : norm (r (U +v D)) <= gamma * (norm d * norm d)).
  { assert (E : U +v n_DU s +v d = U +v D) by (unfold D; vring). specialize (TY d). rewrite E, MD, <- ER in TY. specialize (TY IN').
    match type of TY with norm ?v <= _ => replace v with (r (U +v D)) in TY by vring end. exact TY. }
  exists (setRnorm (norm (r (U +v D))) (setR (r (U +v D)) (addLog (EvRes (U +v D) L None) (setDU D (setdU d (addLog (EvSolve m (n_R s) None) (addLog (EvFact m None) (addLog (EvJac (U +v n_DU s) (n_dU s) None) s)))))))).
  split.
  - unfold newtonIteration, computeJacobian. rewrite EU, J. cbn [ansExc rbind]. unfold factorize. rewrite FC. cbn [rbind]. unfold solveSystem. cbn [n_R addLog]. rewrite SD. cbn [rbind].
    unfold computeResidual. cbn. rewrite Hr, EL, EU. replace (n_DU s +v 1 *v d) with D by (unfold D; vring). rewrite (rg_res _ _ _ _ _ _ _ _ RG _ IN'). cbn. reflexivity.
  - split; [|split; [|split]; reflexivity]. unfold passed. cbn. repeat split; try assumption.
Qed.
Lemma passed_res k s : passed k s -> norm (n_R s) <= h ^ (2 ^ Datatypes.S k - 1) * n_ini s.
Proof.
  intros (EU & EL & ER & EN & I0 & I1 & B1 & B2 & B3). pose proof X_pos as XP. pose proof h_pos as HP.
  pose proof (norm_pos (n_dU s)) as P1. set (q := h ^ (2 ^ k - 1)) in *. assert (Q0 : 0 <= q) by (apply pow_le; exact HP).
  assert (E : (2 ^ Datatypes.S k - 1 = 1 + ((2 ^ k - 1) + (2 ^ k - 1)))%nat) by (cbn [Nat.pow]; pose proof (Nat.pow_nonzero 2 k ltac:(lia)); lia).
  rewrite E, !pow_add, pow_1. fold q.
  assert (norm (n_dU s) * norm (n_dU s) <= q * X * (q * X)) by (apply Rmult_le_compat; assumption).
  assert (gamma * (norm (n_dU s) * norm (n_dU s)) <= gamma * (q * X * (q * X))) by (apply Rmult_le_compat_l; assumption).
  assert (gamma * (q * X * (q * X)) <= gamma * (q * X * (q * (beta * n_ini s)))) by (apply Rmult_le_compat_l; [assumption|]; apply Rmult_le_compat_l; [apply Rmult_le_pos; lra|apply Rmult_le_compat_l; assumption]).
  assert (beta * gamma * X * (q * q * n_ini s) <= h * (q * q * n_ini s)) by (apply Rmult_le_compat_r; [repeat apply Rmult_le_pos; lra|unfold X; lra]). lra.
Qed.
(** a pass number k after which both quotients are small passes the test *)
Lemma passed_test k s : passed k s -> 3/2 * h ^ (2 ^ k - 1) < effTolU o -> h ^ (2 ^ Datatypes.S k - 1) < effTolF o -> newtonTest o s = true.
Proof.
  intros PS TU TF. pose proof PS as (EU & EL & ER & EN & I0 & I1 & B1 & B2 & B3). pose proof X_pos as XP. pose proof h_pos as HP.
  pose proof (norm_pos (n_dU s)) as P1. pose proof (norm_pos (n_DU s -v x0)) as P2. set (q := h ^ (2 ^ k - 1)) in *. assert (Q0 : 0 <= q) by (apply pow_le; exact HP).
  assert (LB : 2/3 * X <= norm (n_DU s)).
  { pose proof (norm_triangle (n_DU s) (vopp (n_DU s -v x0))) as T. rewrite norm_opp in T. replace (n_DU s +v vopp (n_DU s -v x0)) with x0 in T by vring. fold X in T. lra. }
  unfold newtonTest. apply andb_true_iff. split; apply ratioLt_pos; try lra.
  - rewrite Hr, Rmult_1_l. assert (3/2 * q * norm (n_DU s) < effTolU o * norm (n_DU s)) by (apply Rmult_lt_compat_r; lra).
    assert (3/2 * q * (2/3 * X) <= 3/2 * q * norm (n_DU s)) by (apply Rmult_le_compat_l; lra). lra.
  - rewrite EN. eapply Rle_lt_trans; [apply (passed_res k s PS)|]. apply Rmult_lt_compat_r; assumption.
Qed.
(** from after pass number k on, with n more passes allowed *)
Lemma loop_converges N : (1 <= N)%nat -> 3/2 * h ^ (2 ^ (N - 1) - 1) < effTolU o -> h ^ (2 ^ N - 1) < effTolF o ->
  forall n k s, passed k s -> newtonTest o s = false -> (k < N - 1)%nat -> (N <= Datatypes.S k + n)%nat ->
  exists s' k', newtonLoop p o n (Datatypes.S k) s = Done tt s' /\ (k' < N)%nat /\ n_it s' = k' /\ n_stat s' = n_stat s /\
    exists s1, passed k' s1 /\ n_U s' = U +v n_DU s1 /\ n_R s' = n_R s1 /\ n_ini s1 = n_ini s.
Proof.
  intros N1 TU TF n. induction n as [|n IH]; intros k s Ps Ts Hk Hn; [lia|]. cbn [newtonLoop].
  assert (Ps' : passed k (setIt (Datatypes.S k) s)) by exact Ps.
  destruct (pass k _ Ps') as (s' & E & Q & EI & EJ & EK). rewrite E. cbn [rbind]. destruct (newtonTest o s') eqn:T.
  - exists (setU (n_U s' +v n_DU s') s'), (Datatypes.S k). split; [reflexivity|]. split; [lia|]. cbn. split; [rewrite EI; reflexivity|]. split; [exact EK|]. exists s'. repeat split; try apply Q; [|exact EJ]. destruct Q as (-> & _). reflexivity.
  - destruct (Nat.eq_dec (Datatypes.S k) (N - 1)) as [EN|NE].
    + exfalso. rewrite (passed_test (Datatypes.S k) s' Q) in T; [discriminate| |]; [rewrite EN; exact TU|]. replace (Datatypes.S (Datatypes.S k)) with N by lia. exact TF.
    + destruct n as [|n]; [lia|]. destruct (IH (Datatypes.S k) s' Q T ltac:(lia) ltac:(lia)) as (s2 & k' & E2 & R1 & R2 & R3 & s1 & R4 & R5 & R6 & R7).
      exists s2, k'. split; [exact E2|]. split; [exact R1|]. split; [exact R2|]. split; [rewrite R3; exact EK|]. exists s1. rewrite R7. auto.
Qed.
Lemma in_ball : norm (U -v U) <= 4/3 * norm x0.
Proof. pose proof X_pos as XP. replace (U -v U) with (v0 : S) by vring. rewrite norm_0. fold X. lra. Qed.
Lemma in_ball1 : norm (U +v x0 -v U) <= 4/3 * norm x0.
Proof. pose proof X_pos as XP. replace (U +v x0 -v U) with x0 by vring. fold X. lra. Qed.
Lemma first_start s : n_U s = U -> n_L s = L -> n_head s = false -> 0 < norm (r U) -> exists s0, start_ p s = Done tt s0 /\
  n_U s0 = U /\ n_L s0 = L /\ n_DU s0 = v0 /\ n_dU s0 = v0 /\ n_R s0 = r U /\ n_ini s0 = norm (r U).
Proof.
  intros HU HL HH RP. unfold start_. rewrite HH. cbv zeta. unfold computeResidual. cbn [n_L n_U setDU addLog]. rewrite HU, HL, (rg_res _ _ _ _ _ _ _ _ RG U in_ball). cbn [rbind].
  eexists. split; [reflexivity|]. cbn [n_U n_L n_DU n_dU n_R n_ini n_rnorm setdU setIni setRnorm setR addLog setDU].
  do 5 (split; [first [assumption|reflexivity]|]). unfold orOne. rewrite (proj2 (Reqb_false _ _)) by lra. reflexivity.
Qed.
Lemma first_pass m0 s0 : n_U s0 = U -> n_L s0 = L -> n_DU s0 = v0 -> n_dU s0 = v0 -> n_R s0 = r U -> n_ini s0 = norm (r U) -> 0 < norm (r U) ->
  np_jac p U v0 = Yes m0 -> np_solve p m0 (r U) = Some x0 ->
  exists s1, newtonIteration p o s0 = Done tt s1 /\ passed 0 s1 /\ n_ini s1 = norm (r U) /\ n_it s1 = n_it s0.
Proof.
  intros HU HL HD Hd HR HI RP HJ HS. pose proof X_pos as XP.
  destruct (rg_jac _ _ _ _ _ _ _ _ RG U v0 in_ball) as (m & J & FC & SV & TY). rewrite HJ in J. injection J as <-.
  destruct (SV (r U)) as (d & SD & MD & ND). rewrite HS in SD. injection SD as <-.
  unfold newtonIteration, computeJacobian. rewrite HD, Hd, HU. replace (U +v v0) with U by vring. rewrite HJ. cbn [ansExc rbind]. unfold factorize. rewrite FC. cbn [rbind].
  unfold solveSystem. cbn [n_R addLog]. rewrite HR, HS. cbn [rbind]. unfold computeResidual. cbn [n_U n_L n_DU setDU setdU addLog]. rewrite Hr, HU, HL, HD. replace (v0 +v 1 *v x0) with x0 by vring. rewrite (rg_res _ _ _ _ _ _ _ _ RG _ in_ball1). cbn [rbind].
  eexists. split; [reflexivity|]. split; [|split; [exact HI|reflexivity]].
  unfold passed. cbn [n_U n_L n_DU n_dU n_R n_ini n_rnorm setdU setIni setRnorm setR addLog setDU]. rewrite HI. fold X in ND.
  repeat split; try assumption.
  - change (2 ^ 0 - 1)%nat with 0%nat. rewrite pow_O. fold X. lra.
  - replace (x0 -v x0) with (v0 : S) by vring. rewrite norm_0. fold X. lra.
  - specialize (TY x0 in_ball1). rewrite MD in TY. match type of TY with norm ?v <= _ => replace v with (r (U +v x0)) in TY by vring end. exact TY.
Qed.
Lemma passed_fin k z : passed k z -> n_ini z = norm (r U) -> norm (U +v n_DU z -v U) <= 4/3 * norm x0 /\ norm (r (U +v n_DU z)) <= h ^ (2 ^ Datatypes.S k - 1) * norm (r U).
Proof.
  intros Pz Iz. pose proof (passed_res k z Pz) as Q. rewrite Iz in Q. destruct Pz as (EU & EL & ER & EN & I0 & I1 & B1 & B2 & B3). split; [|rewrite <- ER; exact Q].
  replace (U +v n_DU z -v U) with ((n_DU z -v x0) +v x0) by vring. eapply Rle_trans; [apply norm_triangle|]. pose proof (norm_pos (n_dU z)). fold X. lra.
Qed.
(** If the equations are regular near the starting displacement [U] and the first Newton increment x0
    is small enough (h = beta gamma |x0| <= 1/4), the residual is squared in every pass: the solver
    answers Success, after at most N passes as soon as MaxIterations is at least N and the
    tolerances are above h^(2^N - 1) for the forces and 3/2 h^(2^(N-1) - 1) for the displacements. *)
Theorem C109_newton m0 N s :
  n_U s = U -> n_L s = L -> n_head s = false ->
  np_jac p U v0 = Yes m0 -> np_solve p m0 (r U) = Some x0 ->
  (1 <= N <= no_maxIt o)%nat -> 3/2 * h ^ (2 ^ (N - 1) - 1) < tolOr (no_tolU o) (no_tol o) -> h ^ (2 ^ N - 1) < tolOr (no_tolF o) (no_tol o) ->
  exists s', newtonSolve p o s = Done Success s' /\ (n_it s' < N)%nat /\
    norm (n_U s' -v U) <= 4/3 * norm x0 /\ norm (r (n_U s')) <= h ^ (2 ^ Datatypes.S (n_it s') - 1) * norm (r U).
Proof.
  intros HU HL HH HJ HS [N1 N2] TU TF. rewrite <- effTolU_spec in TU. rewrite <- effTolF_spec in TF.
  assert (RP : 0 < norm (r U)).
  { pose proof X_pos as XP. destruct (rg_jac _ _ _ _ _ _ _ _ RG U v0 in_ball) as (m & J & _ & SV & _). rewrite HJ in J. injection J as <-.
    destruct (SV (r U)) as (d & SD & _ & ND). rewrite HS in SD. injection SD as <-.
    destruct (Req_dec (norm (r U)) 0) as [E|E]; [rewrite E in ND; fold X in ND; lra|pose proof (norm_pos (r U)); lra]. }
  destruct (first_start s HU HL HH RP) as (s0 & ST & A1 & A2 & A3 & A4 & A5 & A6).
  destruct (first_pass m0 (setIt 0 s0) A1 A2 A3 A4 A5 A6 RP HJ HS) as (s1 & IT & P0 & I1 & C1).
  unfold newtonSolve, solveNonlinear_. rewrite (rg_nl _ _ _ _ _ _ _ _ RG), ST. cbn [rbind].
  destruct (no_maxIt o) as [|n] eqn:EM; [lia|]. cbn [newtonLoop]. rewrite IT. cbn [rbind].
  destruct (newtonTest o s1) eqn:T.
  - cbn [guarded]. eexists. split; [reflexivity|]. cbn [n_it n_U setStat setU]. rewrite C1. cbn [n_it setIt]. split; [lia|]. rewrite (proj1 P0). apply (passed_fin O s1 P0 I1).
  - destruct (Nat.eq_dec N 1) as [->|NE].
    { exfalso. replace (1 - 1)%nat with 0%nat in TU by lia. rewrite (passed_test 0 s1 P0 TU TF) in T. discriminate. }
    destruct n as [|n]; [lia|].
    destruct (loop_converges N N1 TU TF (Datatypes.S n) 0 s1 P0 T ltac:(lia) ltac:(lia)) as (s2 & k' & E2 & R1 & R2 & R3 & z & R4 & R5 & R6 & R7).
    rewrite E2. cbn [guarded]. eexists. split; [reflexivity|]. cbn [n_it n_U setStat]. rewrite R2, R5. split; [exact R1|]. rewrite I1 in R7. exact (passed_fin k' z R4 R7).
Qed.
End Newton.
Print Assumptions C109_newton.
Lemma norm_R (x : R) : norm (x : VS_R) = Rabs x.
Proof. unfold norm. cbn. apply sqrt_Rsqr_abs. Qed.
Lemma Rabs_both x y : Rabs x <= y -> - y <= x <= y.
Proof. intros H. pose proof (Rle_abs x). pose proof (Rle_abs (- x)). rewrite Rabs_Ropp in *. lra. Qed.
(** u^2 = l at l = 1 from u = 5/4: x0 = -9/40, tangents 2u with |u - 5/4| <= 3/10 have inverses below
    10/19, the error of the prediction is d^2; h = 9/76 *)
Example C109_example : exists s, newtonSolve exSquare (exOpt 4 (1/100000000) (1/1000)) (setSolution (5/4 : VS_R) 1 newtonNew) = Done Success s /\ (n_it s < 4)%nat /\
  Rabs (n_U s - 5/4) <= 3/10 /\ Rabs (1 - n_U s * n_U s) <= 9/16.
Proof.
  set (r := fun u : VS_R => 1 - u * u : VS_R).
  assert (X0 : norm ((-9/40) : VS_R) = 9/40) by (rewrite norm_R; unfold Rabs; destruct (Rcase_abs _); lra).
  assert (RG : regular exSquare (fun m d => m * d) r 1 (5/4 : VS_R) (4/3 * norm ((-9/40) : VS_R)) (10/19) 1).
  { rewrite X0. split; [reflexivity| |].
    - intros u Hu. rewrite norm_R in Hu. cbn in Hu. apply Rabs_both in Hu. cbn. rewrite (proj2 (Rltb_false _ _)) by lra. reflexivity.
    - intros u du Hu. rewrite norm_R in Hu. cbn in Hu. apply Rabs_both in Hu. exists (2 * u). cbn. rewrite (proj2 (Rltb_false _ _)) by lra. rewrite (proj2 (Reqb_false _ _)) by lra.
      split; [reflexivity|]. split; [reflexivity|]. split.
      + intros f. exists (f / (2 * u)). split; [reflexivity|]. split; [field; lra|]. rewrite !norm_R. unfold Rdiv at 1. rewrite Rabs_mult, Rmult_comm. apply Rmult_le_compat_r; [apply Rabs_pos|].
        rewrite Rabs_pos_eq by (apply Rlt_le, Rinv_0_lt_compat; lra). apply Rle_trans with (/ (19/10)); [apply Rinv_le_contravar; lra|lra].
      + intros d _. rewrite !norm_R. unfold r. rewrite <- Rabs_mult. match goal with |- Rabs ?x <= _ * Rabs ?y => replace x with (- y) by (cbn; ring) end. rewrite Rabs_Ropp. lra. }
  destruct (C109_newton exSquare (exOpt 4 (1/100000000) (1/1000)) (fun m d => m * d) r 1 (5/4 : VS_R) ((-9/40) : VS_R) (10/19) 1 (9/76)
    ltac:(intros E; cbn in E; lra) ltac:(lra) ltac:(lra) ltac:(rewrite X0; lra) RG eq_refl (5/2) 4 (setSolution (5/4 : VS_R) 1 newtonNew)) as (s & E & I & A & B); try reflexivity.
  - cbn. rewrite (proj2 (Rltb_false _ _)) by lra. f_equal. field.
  - cbn. rewrite (proj2 (Reqb_false _ _)) by lra. f_equal. unfold r. field.
  - cbn. lia.
  - unfold tolOr. cbn [no_tolU no_tolF no_tol exOpt]. destruct (Req_EM_T _ _); [lra|]. cbn. lra.
  - unfold tolOr. cbn [no_tolU no_tolF no_tol exOpt]. destruct (Req_EM_T _ _); [lra|]. cbn. lra.
  - exists s. split; [exact E|]. split; [exact I|]. rewrite X0 in A.
    assert (A' : Rabs (n_U s - 5/4) <= 4/3 * (9/40)) by (eapply Rle_trans; [|exact A]; rewrite norm_R; apply Req_le; f_equal; cbn; ring). split; [lra|].
    rewrite !norm_R in B. unfold r in B.
    assert (P : (9 / 76) ^ (2 ^ Datatypes.S (n_it s) - 1) <= 1) by (rewrite <- (pow1 (2 ^ Datatypes.S (n_it s) - 1)); apply pow_incr; lra).
    assert (R0 : Rabs (1 - 5/4 * (5/4)) = 9/16) by (unfold Rabs; destruct (Rcase_abs _); lra). rewrite R0 in B. lra.
Qed.
