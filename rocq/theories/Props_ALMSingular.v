(** Properties of the search for singular points: C36, C37, C72-C74. *)
From Verif Require Import VS Status RunTac ALMBase ALMBaseProofs ALMStep ALMLog ALMPoints ALMRun ALMVerbose Props_ALMStep Props_ALMStab ALMSingular.
Local Open Scope R_scope.

Ltac evhook ::=
  lazymatch goal with
  | |- testLoop ?p ?n ?s = _ => let n' := eval cbv in n in change (testLoop p n s) with (testLoop p n' s); cbn [testLoop]
  | |- extendedLoop ?p ?o ?n ?i ?tol ?s = _ => let n' := eval cbv in n in change (extendedLoop p o n i tol s) with (extendedLoop p o n' i tol s); cbn [extendedLoop]
  | |- bisectionLoop ?p ?o ?k ?n ?tol ?r ?u ?l ?f ?s = _ => let n' := eval cbv in n in
      change (bisectionLoop p o k n tol r u l f s) with (bisectionLoop p o k n' tol r u l f s); cbn [bisectionLoop]
  | |- modeLoop ?p ?o ?n ?v ?c ?s = _ => let n' := eval cbv in n in change (modeLoop p o n v c s) with (modeLoop p o n' v c s); cbn [modeLoop]
  end.

Section Frame.
Context {S : VS} {Mat : Type}.
Notation st := (st S Mat).
Variable p : problem S Mat.
Variable o : opts.
Variable k : kind.
Implicit Types s : st.
Tactic Notation "kb" ident(s1) ident(K) := apply bind_proj; [|intros ? s1 _ K].

(** the settings of the arc length, and the stability before the last step *)
Definition keepL s := (s_len s, s_adaptive s, s_desired s, s_lenOri s, s_initialized s, s_stabPrev s).
Lemma keep4L s s' : keep4 s' = keep4 s -> keepL s' = keepL s.
Proof. intros H. injection H. intros. unfold keepL. congruence. Qed.
Lemma refactorize_L s : keep4 (outSt (refactorize p s)) = keep4 s.
Proof. unfold refactorize. destruct (s_jac s); [apply factorizeMatrix_keep|reflexivity]. Qed.
Lemma testLoop_L n : forall s, keepL (outSt (testLoop p n s)) = keepL s.
Proof.
  induction n as [|n IH]; intros s; cbn [testLoop]; [reflexivity|]. kb s1 K1; [apply keep4L, solveSystem_keep|].
  rewrite IH. exact K1.
Qed.
Lemma test_L j s : keepL (outSt (testSingularPoint p o j s)) = keepL s.
Proof.
  unfold testSingularPoint. kb s1 K1; [destruct j; [apply keep4L, refreshJacobian_keep|reflexivity]|]. cbv zeta. rewrite <- K1.
  change (keepL s1) with (keepL (set_Vm (normalize (p_ones p)) s1)). kb s2 K2; [apply keep4L, refactorize_L|]. rewrite <- K2.
  kb s3 K3; [apply testLoop_L|]. exact K3.
Qed.
Lemma residualAt_L u l s : keepL (outSt (computeResidualAt p u l s)) = keepL s.
Proof. unfold computeResidualAt. destruct (p_residual p u l); reflexivity. Qed.
Lemma norms_L s : keepL (computeResidualNorms p s) = keepL s.
Proof. unfold computeResidualNorms. destruct (Nat.eqb _ _); reflexivity. Qed.
Lemma extIteration_L s : keepL (outSt (extendedSystemIteration p s)) = keepL s.
Proof.
  unfold extendedSystemIteration. kb s1 K1; [apply residualAt_L|]. rewrite <- K1. cbv zeta.
  change (keepL s1) with (keepL (set_resVec a s1)). kb s2 K2; [apply keep4L, refreshJacobian_keep|]. rewrite <- K2.
  kb s3 K3; [apply keep4L, computeUt_keep|]. rewrite <- K3. kb s4 K4; [apply keep4L, computeUbar_keep|]. rewrite <- K4.
  kb s5 K5; [apply keep4L, computeJacobianAt_keep|]. rewrite <- K5. destruct (s_jac s5); [|reflexivity].
  kb s6 K6; [apply keep4L, factorizeMatrix_keep|]. rewrite <- K6. kb s7 K7; [apply keep4L, solveSystem_keep|]. rewrite <- K7.
  match goal with |- context [solveSystem p ?f (set_dVt ?x s7)] => change (keepL s7) with (keepL (set_dVt x s7)) end.
  kb s8 K8; [apply keep4L, solveSystem_keep|]. rewrite <- K8. destruct (Reqb _ 0); [reflexivity|]. destruct (rdiv _ _); reflexivity.
Qed.
Lemma extLoop_L tol : forall n i s, keepL (outSt (extendedLoop p o n i tol s)) = keepL s.
Proof.
  induction n as [|n IH]; intros i s; cbn [extendedLoop]; [reflexivity|]. cbv zeta.
  change (keepL s) with (keepL (set_numIt i s)). kb s1 K1; [apply extIteration_L|]. rewrite <- K1.
  match goal with |- context [refreshJacobian p _ _ ?x] => change (keepL s1) with (keepL x) end. kb s2 K2; [apply keep4L, refreshJacobian_keep|].
  rewrite <- K2. destruct (s_jac s2) as [j|]; [|reflexivity].
  match goal with |- context [computeResidualAt p _ _ ?x] => change (keepL s2) with (keepL x) end. kb s3 K3; [apply residualAt_L|]. rewrite <- K3.
  change (keepL s3) with (keepL (set_resVec a1 s3)). rewrite <- (norms_L (set_resVec a1 s3)). kb s4 K4; [destruct (o_verbose o); [apply keep4L, computeStability__keep|reflexivity]|].
  rewrite <- K4. destruct (Rltb _ tol); [reflexivity|]. destruct n as [|n]; [destruct (o_spFail o); reflexivity|]. apply IH.
Qed.
Lemma extSolve_L u l tol s : keepL (outSt (extendedSystemSolve p o u l tol s)) = keepL s.
Proof.
  unfold extendedSystemSolve. cbv zeta. change (keepL s) with (keepL (set_L l (set_U u s))). kb s1 K1; [apply keep4L, refreshJacobian_keep|].
  rewrite extLoop_L. exact K1.
Qed.
Lemma modeLoop_L n : forall v c s, keepL (outSt (modeLoop p o n v c s)) = keepL s.
Proof.
  induction n as [|n IH]; intros v c s; cbn [modeLoop]; [reflexivity|]. kb s1 K1; [apply keep4L, refactorize_L|]. rewrite <- K1.
  kb s2 K2; [apply keep4L, solveSystem_keep|]. rewrite <- K2. cbv zeta. destruct (Rltb _ _); [reflexivity|]. rewrite IH. reflexivity.
Qed.
Lemma switch_L s : keepL (outSt (switchBranch o s)) = keepL s.
Proof. unfold switchBranch. cbv zeta. destruct (rdiv _ _); reflexivity. Qed.
End Frame.

(** ** C36: the search restores the settings of the arc length *)
(** The arc length and the adaptive switch are those from before the call when no exception
    left the search (steps of the bisection that fail are allowed), and also when there is no
    bisection (tolerance 0). *)
Theorem C36_restores_settings_partial {S : VS} {Mat} (p : problem S Mat) o k u l switch jacobian testPoint s :
  ((exists s1, computeSingularPoint_ p o k u l switch jacobian testPoint s = Ret tt s1) \/ o_spTolB o = 0) ->
  let s' := outSt (computeSingularPoint p o k u l switch jacobian testPoint s) in
  s_len s' = s_len s /\ s_adaptive s' = s_adaptive s.
Proof.
  intros H. cbv zeta.
  assert (G : let s' := outSt (computeSingularPoint_ p o k u l switch jacobian testPoint s) in s_len s' = s_len s /\ s_adaptive s' = s_adaptive s).
  2:{ cbv zeta in G. unfold computeSingularPoint. destruct (computeSingularPoint_ p o k u l switch jacobian testPoint s) as [[] t|e t]; [exact G|].
      destruct (statusOf e); exact G. }
  cbv zeta. unfold computeSingularPoint_ in *.
  destruct (if testPoint then testSingularPoint p o jacobian s else Ret true s) as [test s1|e s1] eqn:E1; cbn [obind outSt] in *.
  2:{ destruct testPoint; [|discriminate]. pose proof (test_L p o jacobian s) as T. rewrite E1 in T. injection T. auto. }
  assert (T : keepL s1 = keepL s).
  { destruct testPoint; [pose proof (test_L p o jacobian s) as T; rewrite E1 in T; exact T|congruence]. }
  destruct test; [|injection T; auto].
  assert (T1 : keepL (set_L l (set_U u s1)) = keepL s) by exact T. revert T1 H. cbv zeta. generalize (set_L l (set_U u s1)). clear. intros s1 T H.
  match goal with |- context [obind ?x _] => destruct x as [[] s2|e s2] eqn:E2; cbn [obind outSt] in * end.
  2:{ exfalso. destruct H as [(t & H)|H]; [discriminate|]. rewrite H in E2. destruct (Reqb 0 0) eqn:Z; [discriminate|]. apply Reqb_false in Z. lra. }
  assert (T2 : s_len s2 = s_len s /\ s_adaptive s2 = s_adaptive s).
  { injection T. intros. destruct (negb _); [|apply (f_equal outSt) in E2; cbn in E2; subst s2; split; assumption].
    unfold bisectionSolve in E2. cbv zeta in E2.
    match type of E2 with obind (obind ?x _) _ = _ => destruct x as [ref s3|] eqn:E3; cbn [obind] in E2; [|discriminate] end.
    match type of E2 with obind (obind ?x _) _ = _ => destruct x as [fa s4|] eqn:E4; cbn [obind] in E2; [|discriminate] end.
    match type of E2 with obind (obind ?x _) _ = _ => destruct x as [cv s5|] eqn:E5; cbn [obind] in E2; [|discriminate] end.
    match type of E2 with obind ?x _ = _ => pose proof (modeLoop_L p o 5 v0 cv (set_Vm (normalize (p_ones p))
       (set_adaptive (s_adaptive (set_L (s_L s1) (set_U (s_U s1) s1))) (set_len (s_len (set_L (s_L s1) (set_U (s_U s1) s1))) s5)))) as M; destruct x as [c s6|] eqn:E6; cbn [obind] in E2; [|discriminate] end.
    cbn [outSt] in M. apply (f_equal outSt) in E2. cbn [outSt] in E2. subst s2. injection M. intros. cbn in *. split; congruence. }
  clear - T2. destruct T2 as [T2 T3]. rewrite <- T2, <- T3. clear.
  pose proof (extSolve_L p o (s_U s2) (s_L s2) (o_spTolE o) s2) as X.
  destruct (extendedSystemSolve p o (s_U s2) (s_L s2) (o_spTolE o) s2) as [c s3|e s3]; cbn [obind outSt] in *; [|injection X; auto].
  match goal with |- context [obind ?x _] => assert (Y : keepL (outSt x) = keepL s3) by
    (destruct (_ && _); [apply switch_L|reflexivity]); destruct x as [[] s4|e s4] end; cbn [obind outSt] in *;
  injection X; injection Y; intros; cbn; split; congruence.
Qed.
Print Assumptions C36_restores_settings_partial.

(** a spring that loses its stiffness at the displacement 1 under the load 3/4: stiffness 1
    below 1/2, then 2 (1 - u), 1/200 from 1 on *)
Definition exLimit : problem VS_R R := @mkProblem VS_R R
  (fun u l => if Rltb u (1/2) then Some (u - l) else if Rltb u 1 then Some (2 * u - u * u - 1/4 - l) else Some (3/4 + (u - 1) / 200 - l))
  (fun u _ => if Rltb u (1/2) then Some 1 else if Rltb u 1 then Some (2 * (1 - u)) else Some (1/200)) (fun m => negb (Reqb m 0))
  (fun m f => if Reqb m 0 then None else Some (f / m)) (fun m x => m * x) (fun m => [m]) (fun m => Some [m]) 1 1 1.
(** [exOpts] with other tolerances for the search *)
Definition spOpts (maxIt : nat) (fail : bool) (testTol tolE tolB tau : R) : opts := {|
  o_maxIt := maxIt; o_tol := 1/100; o_tolF := 1/100; o_tolU := 1/100; o_tau := tau; o_quasi := false; o_quasiInterval := (-1)%Z;
  o_bif := BifDeterminant; o_ldlt := true; o_verbose := false; o_relax := 1; o_spFail := fail; o_spTestTol := testTol;
  o_spTestIt := 1; o_spTolE := tolE; o_spTolB := tolB; o_phiUser := true; o_angle := AngStep |}.
(** one step of bisection, then the extended iterations *)
Example C36_example : exists s, computeSingularPoint_ exLimit (spOpts 2 true 2 (1/100) (1/2) 10) LoadControl (0 : VS_R) 0 false true true
    (set_adaptive true (exSt VS_R R (1/2))) = Ret tt s /\ s_adaptive s = true /\ s_len s = 1/2 /\ s_U s = 1.
Proof. eexists. split; [ev|]. rcbv. repeat split; lra. Qed.
(** An exception in the bisection leaves the adaptive switch off: after a successful step the
    Jacobian at the new point fails. *)
Definition exEdge : problem VS_R R := @mkProblem VS_R R
  (fun u l => Some (2 * u - u * u / 100 - l)) (fun u _ => if Rltb (301/200) u then None else Some 2) (fun _ => true)
  (fun m f => Some (f / m)) (fun m x => m * x) (fun m => [m]) (fun m => Some [m]) 1 1 1.
Theorem C36_refuted : exists s, computeSingularPoint exEdge (spOpts 5 true 2 (1/100) (1/100) 10) LoadControl (0 : VS_R) 0 false true true
    (set_adaptive true (exSt VS_R R 3)) = Ret tt s /\ s_stat s = AssemblyError /\ s_adaptive s = false.
Proof. eexists. split; [ev|]. rcbv. repeat split; reflexivity. Qed.
Print Assumptions C36_refuted.
(** Without an exception the status is not set by the search: a search that stops at once
    because the point is no bifurcation returns NotStarted, and one whose extended iterations
    do not converge returns the Success of an earlier call. *)
Theorem C36_status_refuted : exists s t t' : st VS_R R,
  computeSingularPoint exLimit (spOpts 5 false (1/2) (1/100) 0 10) LoadControl (1 : VS_R) 2 true true true (exSt VS_R R 1) = Ret tt s /\
    s_stat s = NotStarted /\ s_U s = 1 /\ s_L s = 2 /\
  computeStability exLimit (spOpts 1 false 2 (1/10000) 0 10) true (exSt VS_R R 1) = Ret tt t /\
  extendedSystemSolve exLimit (spOpts 1 false 2 (1/10000) 0 10) (1/2 : VS_R) (1/2) (1/10000) (set_Vm (1 : VS_R) t) = Ret false t' /\
  exists t'', computeSingularPoint exLimit (spOpts 1 false 2 (1/10000) 0 10) LoadControl (1/2 : VS_R) (1/2) false true true t = Ret tt t'' /\ s_stat t'' = Success.
Proof.
  eexists. eexists. eexists. split; [ev|]. split; [rcbv; reflexivity|]. split; [rcbv; reflexivity|]. split; [rcbv; reflexivity|].
  split; [ev|]. split; [ev|]. eexists. split; [ev|]. rcbv. reflexivity.
Qed.
Print Assumptions C36_status_refuted.
(** ** C37: branch switching *)
Section Switch.
Context {S : VS} {Mat : Type}.
Variable o : opts.
Implicit Types s : st S Mat.
Lemma normalize_unit (v : S) : v <> v0 -> norm (normalize v) = 1 /\ normalize v = (1 / norm v) *v v.
Proof.
  intros H. pose proof (norm_pos v) as N. assert (Nz : norm v <> 0) by (rewrite norm_zero; exact H).
  unfold normalize. destruct (Rltb 0 (dot v v)) eqn:E.
  - fold (norm v). split; [|reflexivity]. rewrite norm_scale. unfold Rdiv. rewrite Rmult_1_l, Rabs_right; [field; exact Nz|].
    apply Rle_ge, Rlt_le, Rinv_0_lt_compat. lra.
  - apply Rltb_false in E. exfalso. apply Nz. unfold norm. replace (dot v v) with 0; [apply sqrt_0|]. pose proof (dot_pos S v). lra.
Qed.
Lemma normalize_zero : normalize (v0 : S) = v0.
Proof. unfold normalize. rewrite dot_0_l. destruct (Rltb 0 0) eqn:E; [apply Rltb_true in E; lra|reflexivity]. Qed.
End Switch.
(** The displacement moves by 1/tau along the unit vector of the mode, the load factor stays,
    the last increment is forgotten. *)
Theorem C37_switch_branch {S : VS} {Mat} o (s : st S Mat) :
  o_tau o <> 0 -> s_Vm s <> v0 ->
  exists s', switchBranch o s = Ret tt s' /\
    s_U s' -v s_U s = (1 / o_tau o) *v ((1 / norm (s_Vm s)) *v s_Vm s) /\ norm (s_U s' -v s_U s) = 1 / Rabs (o_tau o) /\
    s_L s' = s_L s /\ s_DUold s' = v0 /\ s_DLold s' = 0 /\ s_len s' = s_len s /\ s_stat s' = s_stat s.
Proof.
  intros Ht Hv. destruct (normalize_unit (s_Vm s) Hv) as [N1 N2]. unfold switchBranch. cbv zeta.
  change (s_Vm (set_Vm (normalize (s_Vm s)) s)) with (normalize (s_Vm s)). rewrite N1. unfold rdiv.
  destruct (Reqb (o_tau o) 0) eqn:E; [apply Reqb_true in E; contradiction|]. eexists. split; [reflexivity|]. cbn.
  rewrite vadd_sub_cancel. split; [rewrite <- N2; reflexivity|]. split; [|repeat split].
  rewrite norm_scale, N1. unfold Rdiv. rewrite !Rmult_1_l, Rmult_1_r. apply Rabs_inv.
Qed.
Print Assumptions C37_switch_branch.
(** The whole search with and without switching: the switched solution is the located point
    moved along the unit mode. *)
Theorem C37_search {S : VS} {Mat} (p : problem S Mat) o k u l jacobian testPoint s s0 s1 :
  computeSingularPoint_ p o k u l false jacobian testPoint s = Ret tt s0 ->
  computeSingularPoint_ p o k u l true jacobian testPoint s = Ret tt s1 ->
  s_L s1 = s_L s0 /\
  (s_U s1 = s_U s0 \/ (o_tau o <> 0 /\ norm (s_Vm s1) = 1 /\ s_Vm s1 = (1 / norm (s_Vm s0)) *v s_Vm s0 /\
     s_U s1 = s_U s0 +v (1 / o_tau o) *v s_Vm s1 /\ s_DUold s1 = v0 /\ s_DLold s1 = 0)).
Proof.
  unfold computeSingularPoint_. 
  destruct (if testPoint then testSingularPoint p o jacobian s else Ret true s) as [test sa|e sa]; cbn [obind]; [|discriminate].
  destruct test; [|intros H1 H2; rewrite H1 in H2; apply (f_equal outSt) in H2; cbn in H2; subst; auto].
  cbv zeta. generalize (set_L l (set_U u sa)). clear. intros s.
  match goal with |- context [obind ?x _] => destruct x as [[] sb|]; cbn [obind]; [|discriminate] end.
  destruct (extendedSystemSolve p o (s_U sb) (s_L sb) (o_spTolE o) sb) as [c sc|]; cbn [obind]; [|discriminate].
  cbn [andb]. intros H1. apply (f_equal outSt) in H1. cbn [outSt obind] in H1.
  destruct (c || o_spFail o); cbn [obind]; intros H2.
  2:{ apply (f_equal outSt) in H2. cbn [outSt] in H2. subst. split; [reflexivity|left; reflexivity]. }
  unfold switchBranch in H2. cbv zeta in H2. change (s_Vm (set_Vm (normalize (s_Vm sc)) sc)) with (normalize (s_Vm sc)) in H2.
  unfold rdiv in H2. destruct (Reqb (o_tau o) 0) eqn:E; cbn [obind] in H2; [discriminate|]. apply Reqb_false in E.
  apply (f_equal outSt) in H2. cbn [outSt] in H2. subst s0 s1. cbn. split; [reflexivity|].
  destruct (Req_dec (norm (s_Vm sc)) 0) as [Z|Z].
  - left. apply norm_zero in Z. rewrite Z, normalize_zero. vring.
  - right. destruct (normalize_unit (s_Vm sc)) as [N1 N2]; [rewrite <- norm_zero; exact Z|]. rewrite N1. repeat (split; [first [assumption|reflexivity]|]). reflexivity.
Qed.
Print Assumptions C37_search.
(** the mode is (3,4), tau = 10: the displacement moves by (3/50, 4/50) *)
Example C37_example : exists s, switchBranch (spOpts 5 true 2 (1/100) 0 10) (set_L 7 (set_Vm ((3, 4) : VS_prod VS_R VS_R) (exSt (VS_prod VS_R VS_R) R 1))) = Ret tt s /\
  s_U s = (3/50, 4/50) /\ s_L s = 7.
Proof. eexists. split; [ev|]. rcbv. split; [f_equal; lra|reflexivity]. Qed.
Example C37_search_example : exists s0 s1,
  computeSingularPoint_ exLimit (spOpts 3 true 2 (1/100) 0 10) LoadControl (1/2 : VS_R) (1/2) false true true (exSt VS_R R 1) = Ret tt s0 /\
  computeSingularPoint_ exLimit (spOpts 3 true 2 (1/100) 0 10) LoadControl (1/2 : VS_R) (1/2) true true true (exSt VS_R R 1) = Ret tt s1 /\
  s_U s1 = s_U s0 + 1/10.
Proof. eexists. eexists. split; [ev|]. split; [ev|]. rcbv. lra. Qed.
