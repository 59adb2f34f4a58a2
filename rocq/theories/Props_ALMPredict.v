(** Property C91: where a step starts. The first point at which a step evaluates the residual
    is the prediction; its distance from the last solution is to be the arc length. *)
From Verif Require Import VS Status RunTac ALMBase ALMBaseProofs ALMStep ALMLog ALMPoints ALMRun Props_ALMStep Props_ALMMethods.
Local Open Scope R_scope.

Section First.
Context {S : VS} {Mat : Type}.
Variable p : problem S Mat.
Variable o : opts.
Implicit Types s : st S Mat.

(** [(u, l)] is the first point at which the evaluations between [s] and [s'] evaluate the
    residual *)
Definition firstPoint s s' (u : S) (l : R) : Prop :=
  exists evs r, s_log s' = s_log s ++ evs /\ points evs = (u, l) :: r.

Definition grows {A} s (x : out S Mat A) : Prop := (exists evs, s_log (outSt x) = s_log s ++ evs) /\ s_phi (outSt x) = s_phi s.
Lemma grows_bind {A B} s (x : out S Mat A) (f : A -> st S Mat -> out S Mat B) :
  grows s x -> (forall a s1, x = Ret a s1 -> grows s1 (f a s1)) -> grows s (obind x f).
Proof.
  intros [(e1 & H1) H2] H. destruct x as [a s1|e s1]; cbn [obind outSt] in *; [|split; eauto].
  destruct (H a s1 eq_refl) as [(e2 & H3) H4]. split; [exists (e1 ++ e2); rewrite H3, H1, app_assoc; reflexivity|congruence].
Qed.
Lemma grows_logs {A} n s (x : out S Mat A) : logs p o n s x -> s_phi (outSt x) = s_phi s -> grows s x.
Proof. intros (evs & H & _) E. split; eauto. Qed.
Lemma grows_trans {A} s s0 (x : out S Mat A) : s_log s0 = s_log s -> s_phi s0 = s_phi s -> grows s0 x -> grows s x.
Proof. unfold grows. intros -> ->. auto. Qed.
Lemma keep4_phi s s' : keep4 s' = keep4 s -> s_phi s' = s_phi s.
Proof. intros H. injection H. auto. Qed.
Lemma keep3_phi s s' : keep3 s' = keep3 s -> s_phi s' = s_phi s.
Proof. intros H. injection H. auto. Qed.
Lemma norms_phi s : s_phi (computeResidualNorms p s) = s_phi s.
Proof. unfold computeResidualNorms. repeat match goal with |- context [if ?x then _ else _] => destruct x end; reflexivity. Qed.

Lemma loop_grows k : forall n i s, jacOK p s -> grows s (stepLoop p o k n i s).
Proof.
  induction n as [|n IH]; intros i s J; [split; [exists []; cbn; rewrite app_nil_r|]; reflexivity|]. cbn [stepLoop]. cbv zeta.
  apply (grows_trans s (set_numIt i s)); [reflexivity|reflexivity|].
  assert (J0 : jacOK p (set_numIt i s)) by (apply (jacOK_ext p s); auto). set (s0 := set_numIt i s) in *. clearbody s0. clear s J.
  assert (La : logs p o 0 s0 (if newJacobian o i then quasiNewtonIteration p k s0 else Ret tt s0)).
  { destruct (newJacobian o i); [apply log_quasi|apply logs_ret; auto]. }
  apply grows_bind.
  { apply (grows_logs 0); auto. destruct (newJacobian o i); [|reflexivity]. apply keep4_phi, quasiNewtonIteration_keep. }
  intros [] s1 E1. destruct (logs_ok p o _ _ _ _ _ La E1) as (_ & _ & _ & J1). clear La E1 J0.
  pose proof (log_iteration p o k s1 J1) as L2.
  apply grows_bind; [apply (grows_logs 0); auto; apply keep3_phi, iteration_keep|].
  intros [] s2 E2. destruct (logs_ok p o _ _ _ _ _ L2 E2) as (_ & _ & _ & J2). clear L2 E2.
  pose proof (log_stability p o s2 J2) as L3.
  apply grows_bind; [apply (grows_logs 0); auto; apply keep4_phi, computeStability_keep|].
  intros [] s3 E3. destruct (logs_ok p o _ _ _ _ _ L3 E3) as (_ & _ & _ & J3). clear L3 E3.
  pose proof (log_residual p o s3 J3) as L4.
  apply grows_bind; [apply (grows_logs 1); auto; apply keep4_phi, computeResidual_keep|].
  intros [] s4 E4. destruct (logs_ok p o _ _ _ _ _ L4 E4) as (_ & _ & _ & J4). clear L4 E4.
  destruct (norms_log p s4) as (G3 & A2 & A3 & _).
  apply (grows_trans s4 (computeResidualNorms p s4)); [exact G3|apply norms_phi|].
  assert (J5 : jacOK p (computeResidualNorms p s4)) by (apply (jacOK_ext p s4); auto).
  set (s5 := computeResidualNorms p s4) in *. clearbody s5.
  assert (L6 : logs p o 0 s5 (if o_verbose o then stepOutput p o s5 else Ret tt s5)).
  { destruct (o_verbose o); [apply log_stability; auto|apply logs_ret; auto]. }
  apply grows_bind; [apply (grows_logs 0); auto; destruct (o_verbose o); [apply keep4_phi, stepOutput_keep|reflexivity]|].
  intros [] s6 E6. destruct (logs_ok p o _ _ _ _ _ L6 E6) as (_ & _ & _ & J6). clear L6 E6.
  destruct (convergedTest o s6).
  - assert (L7 : s_log (iterationFinish o k s6) = s_log s6 /\ s_phi (iterationFinish o k s6) = s_phi s6).
    { unfold iterationFinish. destruct k; try destruct (o_angle o); split; reflexivity. }
    apply (grows_trans s6 (iterationFinish o k s6)); [apply L7|apply L7|]. unfold computeLength.
    repeat match goal with |- context [match ?x with _ => _ end] => destruct x end;
      (split; [exists []; cbn; rewrite app_nil_r|]; reflexivity).
  - destruct n; [split; [exists []; cbn; rewrite app_nil_r|]; reflexivity|]. apply IH. exact J6.
Qed.

(** the prediction is the first point *)
Lemma after_predict k s sP : s_initialized s = true -> predict p o k (started k s) = Ret tt sP ->
  exists e1 e3 b, s_log (outSt (step_ p o k s)) = s_log s ++ e1 ++ [EvResidual (s_U s +v s_DU sP) (s_L s + s_DL sP) b] ++ e3 /\
    points e1 = [] /\ s_phi (outSt (step_ p o k s)) = s_phi sP.
Proof.
  intros Hi EP. unfold step_. rewrite Hi. cbn [negb]. fold (started k s).
  assert (G0 : s_log (started k s) = s_log s /\ s_U (started k s) = s_U s /\ s_L (started k s) = s_L s) by (destruct k; repeat split).
  set (s0 := started k s) in *. clearbody s0. destruct G0 as (G0 & G1 & G2).
  destruct (log_predict p o k s0) as (e1 & L1 & L1').
  assert (KP := predict_keep p o k s0). rewrite EP in *. cbn [obind outSt] in *. destruct L1' as (_ & L2 & J1 & _).
  assert (EU : s_U sP = s_U s /\ s_L sP = s_L s) by (injection KP; intros; split; congruence). destruct EU as [EU EL].
  unfold computeResidual, computeResidualAt. rewrite <- EU, <- EL.
  destruct (p_residual p _ _) as [rr|] eqn:Er; cbn [isSome obind outSt].
  2:{ exists e1, [], false. split; [|split; [apply nres0_points; exact L2|reflexivity]].
      cbn. rewrite L1, G0, <- app_assoc. reflexivity. }
  set (sR := set_resVec rr (logEv (EvResidual (s_U sP +v s_DU sP) (s_L sP + s_DL sP) true) sP)) in *.
  match goal with |- context [s_log (outSt ?x)] => assert (Z : grows sR x) end.
  { destruct (norms_log p sR) as (G3 & A2 & A3 & _).
    apply (grows_trans sR (computeResidualNorms p sR)); [exact G3|apply norms_phi|].
    assert (JR : jacOK p sR) by (apply (jacOK_ext p sP); auto).
    assert (J5 : jacOK p (computeResidualNorms p sR)) by (apply (jacOK_ext p sR); auto).
    set (s5 := computeResidualNorms p sR) in *. clearbody s5.
    assert (L6 : logs p o 0 s5 (if o_verbose o then stepOutput p o s5 else Ret tt s5)).
    { destruct (o_verbose o); [apply log_stability; auto|apply logs_ret; auto]. }
    apply grows_bind; [apply (grows_logs 0); auto; destruct (o_verbose o); [apply keep4_phi, stepOutput_keep|reflexivity]|].
    intros [] s6 E6. destruct (logs_ok p o _ _ _ _ _ L6 E6) as (_ & _ & _ & J6). clear L6 E6.
    assert (LQ : logs p o 0 s6 (if o_quasi o then quasiNewtonPredictor p k s6 else Ret tt s6)).
    { destruct (o_quasi o); [apply log_quasiPredictor|apply logs_ret; auto]. }
    apply grows_bind; [apply (grows_logs 0); auto; destruct (o_quasi o); [apply keep4_phi, quasiNewtonPredictor_keep|reflexivity]|].
    intros [] s7 E7. destruct (logs_ok p o _ _ _ _ _ LQ E7) as (_ & _ & _ & J7). clear LQ E7.
    apply (grows_trans s7 (set_stabPrev (s_stab s7) s7)); [reflexivity|reflexivity|]. apply loop_grows. apply (jacOK_ext p s7); auto. }
  destruct Z as [(e3 & Z1) Z2]. exists e1, e3, true. split; [|split; [apply nres0_points; exact L2|rewrite Z2; reflexivity]].
  rewrite Z1. unfold sR. cbn. rewrite L1, G0, <- !app_assoc. reflexivity.
Qed.
Lemma step_log k s : s_log (outSt (step p o k s)) = s_log (outSt (step_ p o k s)) /\ s_phi (outSt (step p o k s)) = s_phi (outSt (step_ p o k s)).
Proof. unfold step. destruct (step_ p o k s) as [[] s1|e s1]; [split; reflexivity|]. destruct (statusOf e); split; reflexivity. Qed.
Lemma first_point k s s' u l : (step p o k s = Ret tt s' \/ exists e, step p o k s = Exc e s') -> firstPoint s s' u l ->
  exists sP, predict p o k (started k s) = Ret tt sP /\ u = s_U s +v s_DU sP /\ l = s_L s + s_DL sP /\ s_phi s' = s_phi sP.
Proof.
  intros H (evs & r & HE & HP).
  assert (X : s' = outSt (step p o k s)) by (destruct H as [H|[e H]]; rewrite H; reflexivity). clear H.
  destruct (step_log k s) as [X1 X2]. rewrite <- X in X1, X2. rewrite HE in X1. rewrite X2. clear X X2 HE.
  destruct (s_initialized s) eqn:Hi.
  2:{ unfold step_ in X1. rewrite Hi in X1. cbn in X1. rewrite <- (app_nil_r (s_log s)) in X1 at 2. apply app_inv_head in X1. subst. discriminate. }
  destruct (predict p o k (started k s)) as [[] sP|e sP] eqn:EP.
  - exists sP. destruct (after_predict k s sP Hi EP) as (e1 & e3 & b & Y1 & Y2 & Y3). split; auto.
    rewrite Y1 in X1. apply app_inv_head in X1. subst evs. rewrite points_app, Y2 in HP. cbn in HP. injection HP as H1 H2 _. auto.
  - exfalso. unfold step_ in X1. rewrite Hi in X1. cbn [negb] in X1. fold (started k s) in X1. rewrite EP in X1. cbn [obind outSt] in X1.
    assert (G0 : s_log (started k s) = s_log s) by (destruct k; reflexivity).
    destruct (log_predict p o k (started k s)) as (e1 & L1 & L1'). rewrite EP in L1, L1'. cbn [outSt] in L1.
    rewrite L1, G0 in X1. apply app_inv_head in X1. subst e1. destruct L1' as [L1' _].
    rewrite nres_points, HP in L1'. cbn in L1'. lia.
Qed.
Lemma point_exists k s sP : s_initialized s = true -> predict p o k (started k s) = Ret tt sP ->
  exists u l, firstPoint s (outSt (step p o k s)) u l.
Proof.
  intros Hi EP. destruct (after_predict k s sP Hi EP) as (e1 & e3 & b & Y1 & Y2 & Y3). destruct (step_log k s) as [X1 _].
  do 2 eexists. exists (e1 ++ [EvResidual (s_U s +v s_DU sP) (s_L s + s_DL sP) b] ++ e3), (points e3).
  split; [rewrite X1; exact Y1|]. rewrite points_app, Y2. reflexivity.
Qed.
End First.

Section Methods.
Context {S : VS} {Mat : Type}.
Variable p : problem S Mat.
Variable o : opts.
Implicit Types s : st S Mat.

(** [w] answers the load, with a Jacobian at the last solution *)
Definition tangent s (w : S) : Prop := exists du m, p_jacobian p (s_U s) du = Some m /\ p_solve p m (p_F p) = Some w.

Lemma jacobian_at s s1 : stepJacobian p s = Ret tt s1 -> s_DU s = v0 -> exists m, p_jacobian p (s_U s) (s_dU s) = Some m /\ s_fact s1 = Some m.
Proof.
  unfold stepJacobian, refreshJacobian, computeJacobianAt, factorizeMatrix. intros H E. rewrite E in H.
  replace (s_U s +v v0) with (s_U s) in H by vring. destruct (p_jacobian p _ _) as [m|]; [|discriminate]. exists m. split; auto.
  destruct (p_factor p m) eqn:Ef; cbn [obind] in H; [|discriminate]. cbn [obind] in H. rewrite Ef in H. injection H as <-. reflexivity.
Qed.
Lemma solve_at f s x s1 : solveSystem p f s = Ret x s1 -> exists m, s_fact s = Some m /\ p_solve p m f = Some x /\ s1 = logEv (EvSolve m f true) s.
Proof.
  unfold solveSystem. destruct (s_fact s) as [m|]; [|discriminate]. destruct (p_solve p m f) as [y|] eqn:E; [|discriminate].
  intros H. injection H as -> <-. exists m. auto.
Qed.
Lemma Ut_at s s1 : computeUt p s = Ret tt s1 -> exists m w, s_fact s = Some m /\ p_solve p m (p_F p) = Some w /\ s1 = set_dUt w (logEv (EvSolve m (p_F p) true) s).
Proof.
  unfold computeUt. destruct (solveSystem p (p_F p) s) as [x s0|] eqn:E; [|discriminate]. cbn. intros H. injection H as <-.
  destruct (solve_at _ _ _ _ E) as (m & H1 & H2 & ->). exists m, x. auto.
Qed.
Lemma zero_sq (a : S) (b : R) : Reqb (dot a a) 0 && Reqb (b * b) 0 = true <-> a = v0 /\ b = 0.
Proof.
  rewrite andb_true_iff, !Reqb_true. split.
  - intros [H1 H2]. split; [apply dot_zero; auto|]. destruct (Rmult_integral _ _ H2); auto.
  - intros [-> ->]. split; [rewrite dot_0_l; reflexivity|ring].
Qed.

Lemma MU_at s : let y := computeLambdaMU p s in
  s_dL y = sign (dot (s_DUold s) (s_dUt s) + s_phi s * s_phi s * dot (p_F p) (p_F p) * s_DLold s) *
    (if Reqb (sqrt (dot (s_dUt s) (s_dUt s) + s_phi s * s_phi s * dot (p_F p) (p_F p))) 0 then s_len s
     else s_len s / sqrt (dot (s_dUt s) (s_dUt s) + s_phi s * s_phi s * dot (p_F p) (p_F p))) /\
  s_dU y = s_dL y *v s_dUt s /\ s_DU y = s_DU s /\ s_DL y = s_DL s /\ s_phi y = s_phi s.
Proof. repeat split. Qed.
(** how Crisfield's predictor begins *)
Lemma crisfield_begin s s0 s2 : s0 = started Crisfield s ->
  obind (stepJacobian p s0) (fun _ s => computeUt p s) = Ret tt s2 ->
  tangent s (s_dUt s2) /\ s_DU s2 = v0 /\ s_DL s2 = 0 /\ s_len s2 = s_len s /\ s_DUold s2 = s_DUold s /\ s_DLold s2 = s_DLold s /\
  s_dUbar s2 = v0 /\ s_U s2 = s_U s /\ s_L s2 = s_L s /\ s_phi s2 = s_phi s.
Proof.
  intros Es H. destruct (stepJacobian p s0) as [[] s1|] eqn:E1; [|discriminate]. cbn [obind] in H.
  pose proof (keepOk (S:=S) (Mat:=Mat) keep4 _ _ _ _ (stepJacobian_keep p s0) E1) as K1.
  assert (B : s_dUbar s1 = s_dUbar s0).
  { unfold stepJacobian, refreshJacobian, computeJacobianAt, factorizeMatrix in E1. destruct (p_jacobian p _ _) as [m|]; [|discriminate].
    destruct (p_factor p m) eqn:Ef; cbn [obind] in E1; [|discriminate]. rewrite Ef in E1. injection E1 as <-. reflexivity. }
  assert (F : s_DU s0 = v0 /\ s_DL s0 = 0 /\ s_len s0 = s_len s /\ s_DUold s0 = s_DUold s /\ s_DLold s0 = s_DLold s /\ s_dUbar s0 = v0 /\
    s_U s0 = s_U s /\ s_L s0 = s_L s /\ s_phi s0 = s_phi s) by (subst s0; repeat split).
  destruct F as (F1 & F2 & F3 & F4 & F5 & F6 & F7 & F8 & F9). clear Es.
  destruct (jacobian_at _ _ E1 F1) as (m & M1 & M2).
  destruct (Ut_at _ _ H) as (m' & w & M3 & M4 & M5). rewrite M2 in M3. injection M3 as <-.
  assert (T : s_dUt s2 = w /\ s_dUbar s2 = s_dUbar s1) by (subst s2; split; reflexivity). destruct T as [T1 T2].
  pose proof (keepOk (S:=S) (Mat:=Mat) keep4 _ _ _ _ (computeUt_keep p s1) H) as K2.
  injection K2. injection K1. intros. split; [exists (s_dU s0), m; split; [rewrite <- F7; exact M1|rewrite T1; exact M4]|].
  repeat split; congruence.
Qed.
(** the rest of it *)
Definition crisPick s : out S Mat unit :=
  if Reqb (dot (s_DUold s) (s_DUold s)) 0 && Reqb (s_DLold s * s_DLold s) 0 then
    match rdiv (s_len s) (sqrt (2 * dot (s_dUt s) (s_dUt s))) with
    | None => Exc ENaN s
    | Some l => defaultPhi p o (set_dU (s_dUbar s +v l *v s_dUt s) (set_dL l s))
    end
  else obind (if o_phiUser o then Ret tt s
              else match rdiv (dot (s_U s) (s_U s)) (s_L s * s_L s * dot (p_F p) (p_F p)) with
                   | None => Exc ENaN s
                   | Some q => Ret tt (set_phi (sqrt q) s)
                   end) (fun _ s => Ret tt (computeLambdaMU p s)).
Definition crisAdd s : out S Mat unit :=
    let s := set_DU (s_DU s +v s_dU s) s in
    let s := set_DL (s_DL s + s_dL s) s in
    match o_angle o with
    | AngIteration | AngPredictor => Ret tt (set_DLold (s_DL s) (set_DUold (s_DU s) s))
    | AngStep => Ret tt s
    end.
Lemma crisfield_eq s : predictor p o Crisfield s =
  obind (stepJacobian p s) (fun _ s => obind (computeUt p s) (fun _ s => obind (crisPick s) (fun _ s => crisAdd s))).
Proof. reflexivity. Qed.
Lemma crisAdd_at s sP : crisAdd s = Ret tt sP -> s_DU sP = s_DU s +v s_dU s /\ s_DL sP = s_DL s + s_dL s /\ s_phi sP = s_phi s.
Proof. unfold crisAdd. destruct (o_angle o); intros H; injection H as <-; repeat split. Qed.
Lemma predict_none k s : s_guess s = None -> predict p o k s = predictor p o k s.
Proof. unfold predict. intros ->. reflexivity. Qed.
Lemma bind_inv {A B} (x : out S Mat A) (f : A -> st S Mat -> out S Mat B) b s : obind x f = Ret b s -> exists a s1, x = Ret a s1 /\ f a s1 = Ret b s.
Proof. destruct x as [a s1|]; [|discriminate]. intros H. exists a, s1. auto. Qed.
Lemma crisfield_split s0 sP : predictor p o Crisfield s0 = Ret tt sP ->
  exists s2 s4, obind (stepJacobian p s0) (fun _ s => computeUt p s) = Ret tt s2 /\ crisPick s2 = Ret tt s4 /\ crisAdd s4 = Ret tt sP.
Proof.
  rewrite crisfield_eq. intros H. destruct (bind_inv _ _ _ _ H) as ([] & s1 & E1 & H1). destruct (bind_inv _ _ _ _ H1) as ([] & s2 & E2 & H2).
  destruct (bind_inv _ _ _ _ H2) as ([] & s4 & E4 & H4). exists s2, s4. split; [rewrite E1; exact E2|]. split; [exact E4|exact H4].
Qed.
Lemma phi_at q s : let y := set_phi q s in s_dUt y = s_dUt s /\ s_DU y = s_DU s /\ s_DL y = s_DL s /\ s_len y = s_len s /\
  s_DUold y = s_DUold s /\ s_DLold y = s_DLold s.
Proof. repeat split. Qed.
Lemma pick_again s s4 : crisPick s = Ret tt s4 -> s_DUold s <> v0 \/ s_DLold s <> 0 ->
  s_DU s4 = s_DU s /\ s_DL s4 = s_DL s /\ s_dU s4 = s_dL s4 *v s_dUt s /\
  s_dL s4 = sign (dot (s_DUold s) (s_dUt s) + s_phi s4 * s_phi s4 * dot (p_F p) (p_F p) * s_DLold s) *
    (if Reqb (sqrt (dot (s_dUt s) (s_dUt s) + s_phi s4 * s_phi s4 * dot (p_F p) (p_F p))) 0 then s_len s
     else s_len s / sqrt (dot (s_dUt s) (s_dUt s) + s_phi s4 * s_phi s4 * dot (p_F p) (p_F p))).
Proof.
  intros H Hne. unfold crisPick in H.
  assert (Hz : Reqb (dot (s_DUold s) (s_DUold s)) 0 && Reqb (s_DLold s * s_DLold s) 0 = false).
  { apply not_true_is_false. rewrite zero_sq. tauto. }
  rewrite Hz in H. destruct (o_phiUser o); cbn [obind] in H.
  - destruct (MU_at s) as (Q1 & Q2 & Q3 & Q4 & Q5). set (y := computeLambdaMU p s) in *. clearbody y. injection H as <-.
    rewrite Q5, Q3, Q4. split; [reflexivity|]. split; [reflexivity|]. split; [exact Q2|exact Q1].
  - destruct (rdiv _ _) as [q|]; [|discriminate]. cbn [obind] in H. destruct (phi_at (sqrt q) s) as (P1 & P2 & P3 & P4 & P5 & P6).
    set (x := set_phi (sqrt q) s) in *. clearbody x. destruct (MU_at x) as (Q1 & Q2 & Q3 & Q4 & Q5).
    set (y := computeLambdaMU p x) in *. clearbody y. injection H as <-. rewrite P1, P4, P5, P6 in Q1. rewrite P1 in Q2. rewrite P2 in Q3. rewrite P3 in Q4.
    rewrite Q5, Q3, Q4. split; [reflexivity|]. split; [reflexivity|]. split; [exact Q2|exact Q1].
Qed.
Lemma pick_first s s4 : crisPick s = Ret tt s4 -> s_DUold s = v0 -> s_DLold s = 0 ->
  s_DU s4 = s_DU s /\ s_DL s4 = s_DL s /\ s_dU s4 = s_dUbar s +v s_dL s4 *v s_dUt s /\
  sqrt (2 * dot (s_dUt s) (s_dUt s)) <> 0 /\ s_dL s4 = s_len s / sqrt (2 * dot (s_dUt s) (s_dUt s)) /\
  (if o_phiUser o then s_phi s4 = s_phi s else dot (p_F p) (p_F p) <> 0 /\ s_phi s4 = sqrt (dot (s_dUt s) (s_dUt s) / dot (p_F p) (p_F p))).
Proof.
  intros H Z1 Z2. unfold crisPick in H.
  assert (Hz : Reqb (dot (s_DUold s) (s_DUold s)) 0 && Reqb (s_DLold s * s_DLold s) 0 = true) by (rewrite zero_sq; tauto).
  rewrite Hz in H. unfold rdiv at 1 in H. destruct (Reqb (sqrt _) 0) eqn:Eq; [discriminate|]. apply Reqb_false in Eq.
  unfold defaultPhi in H. destruct (o_phiUser o).
  - injection H as <-. repeat split. exact Eq.
  - unfold rdiv in H. destruct (Reqb (dot _ _) 0) eqn:Ez; [discriminate|]. apply Reqb_false in Ez. injection H as <-. repeat split; auto.
Qed.
(** Crisfield's predictor after a step *)
Lemma crisfield_again s sP : predict p o Crisfield (started Crisfield s) = Ret tt sP -> s_guess s = None ->
  s_DUold s <> v0 \/ s_DLold s <> 0 ->
  exists w, tangent s w /\ s_DU sP = s_DL sP *v w /\
    s_DL sP = sign (dot (s_DUold s) w + s_phi sP * s_phi sP * dot (p_F p) (p_F p) * s_DLold s) *
      (if Reqb (sqrt (dot w w + s_phi sP * s_phi sP * dot (p_F p) (p_F p))) 0 then s_len s
       else s_len s / sqrt (dot w w + s_phi sP * s_phi sP * dot (p_F p) (p_F p))).
Proof.
  intros H G Hne. rewrite predict_none in H by (rewrite started_guess; exact G). destruct (crisfield_split _ _ H) as (s2 & s4 & E1 & E2 & E3). 
  destruct (crisfield_begin s _ s2 eq_refl E1) as (T & C1 & C2 & C3 & C4 & C5 & _).
  rewrite <- C4, <- C5 in Hne. destruct (pick_again _ _ E2 Hne) as (Q1 & Q2 & Q3 & Q4). destruct (crisAdd_at _ _ E3) as (R1 & R2 & R3).
  exists (s_dUt s2). split; [exact T|]. rewrite R1, R2, R3, Q1, Q2, Q3, C1, C2, Rplus_0_l. split; [vring|].
  rewrite Q4 at 1. rewrite C3, C4, C5. reflexivity.
Qed.
(** Crisfield's predictor without previous increment *)
Lemma crisfield_begins s sP : predict p o Crisfield (started Crisfield s) = Ret tt sP -> s_guess s = None ->
  s_DUold s = v0 -> s_DLold s = 0 ->
  exists w, tangent s w /\ s_DU sP = s_DL sP *v w /\ sqrt (2 * dot w w) <> 0 /\ s_DL sP = s_len s / sqrt (2 * dot w w) /\
    (if o_phiUser o then s_phi sP = s_phi s else dot (p_F p) (p_F p) <> 0 /\ s_phi sP = sqrt (dot w w / dot (p_F p) (p_F p))).
Proof.
  intros H G Z1 Z2. rewrite predict_none in H by (rewrite started_guess; exact G). destruct (crisfield_split _ _ H) as (s2 & s4 & E1 & E2 & E3). 
  destruct (crisfield_begin s _ s2 eq_refl E1) as (T & C1 & C2 & C3 & C4 & C5 & C6 & C7 & C8 & C9).
  rewrite <- C4 in Z1. rewrite <- C5 in Z2. destruct (pick_first _ _ E2 Z1 Z2) as (Q1 & Q2 & Q3 & Q4 & Q5 & Q6).
  destruct (crisAdd_at _ _ E3) as (R1 & R2 & R3).
  exists (s_dUt s2). split; [exact T|]. rewrite R1, R2, R3, Q1, Q2, Q3, C1, C2, C6, Rplus_0_l. split; [vring|].
  split; [exact Q4|]. split; [rewrite Q5, C3; reflexivity|]. rewrite C9 in Q6. exact Q6.
Qed.

(** Riks and ConsistentCrisfield *)
Definition setRiksPhi k s : out S Mat unit :=
  match k with
  | Riks => if Nat.eqb (p_numDof p) 0 then Exc ENaN s
            else Ret tt (set_phi (if Nat.eqb (p_numDof p) 1 then 99999999999 / 100000000000 else 1 / INR (p_numDof p)) s)
  | _ => Ret tt s
  end.
Definition setLastPhi k s : out S Mat unit := match k with ConsistentCrisfield => defaultPhi p o s | _ => Ret tt s end.
Definition secantOrFirst s : out S Mat unit :=
  if close (s_U s) (s_L s) (s_Uprev s) (s_Lprev s) then firstPredictor p s else secantPredictor (s_U s) (s_L s) (s_Uprev s) (s_Lprev s) s.
Lemma secant_eq k s : k = Riks \/ k = ConsistentCrisfield -> predictor p o k s =
  obind (stepJacobian p s) (fun _ s => obind (setRiksPhi k s) (fun _ s => obind (secantOrFirst s) (fun _ s =>
  obind (setLastPhi k s) (fun _ s => Ret tt (scaleStep false s))))).
Proof.
  intros [-> | ->].
  - unfold predictor, setRiksPhi, setLastPhi. destruct (stepJacobian p s) as [[] s1|]; [|reflexivity]. cbn [obind].
    destruct (Nat.eqb (p_numDof p) 0); reflexivity.
  - reflexivity.
Qed.
Definition keepP s := (keep1 s, s_DU s, s_DL s, s_fact s).
Lemma riksPhi_at k s s1 : setRiksPhi k s = Ret tt s1 -> keepP s1 = keepP s.
Proof. unfold setRiksPhi. destruct k; try (intros H; injection H as <-; reflexivity). destruct (Nat.eqb _ 0); [discriminate|]. intros H; injection H as <-; reflexivity. Qed.
Lemma lastPhi_at k s s1 : setLastPhi k s = Ret tt s1 -> keepP s1 = keepP s /\ s_dU s1 = s_dU s /\ s_dL s1 = s_dL s /\
  (k = ConsistentCrisfield -> o_phiUser o = false -> dot (p_F p) (p_F p) <> 0 /\ s_phi s1 = sqrt (dot (s_dUt s) (s_dUt s) / dot (p_F p) (p_F p))) /\
  (k = Riks -> s_phi s1 = s_phi s) /\ (o_phiUser o = true -> s_phi s1 = s_phi s).
Proof.
  unfold setLastPhi, defaultPhi. destruct k; try (intros H; injection H as <-; repeat split; discriminate).
  destruct (o_phiUser o); [intros H; injection H as <-; repeat split; discriminate|].
  unfold rdiv. destruct (Reqb _ 0) eqn:E; [discriminate|]. apply Reqb_false in E. intros H. injection H as <-. repeat split; try discriminate. auto.
Qed.
Lemma scale_at s : let y := scaleStep false s in s_DU y = s_DU s +v s_len s *v s_dU s /\ s_DL y = s_DL s + s_dL s * s_len s /\ s_phi y = s_phi s.
Proof. repeat split. Qed.
Lemma secant_at s s1 : secantPredictor (s_U s) (s_L s) (s_Uprev s) (s_Lprev s) s = Ret tt s1 ->
  s_lenPrev s <> 0 /\ keepP s1 = keepP s /\ s_dU s1 = (1 / s_lenPrev s) *v (s_U s -v s_Uprev s) /\ s_dL s1 = 1 / s_lenPrev s * (s_L s - s_Lprev s).
Proof.
  unfold secantPredictor. destruct (Reqb _ 0) eqn:E; [discriminate|]. apply Reqb_false in E. intros H. injection H as <-. repeat split; auto.
Qed.
Lemma first_at s s1 : firstPredictor p s = Ret tt s1 -> s_DL s = 0 ->
  exists m w, s_fact s = Some m /\ p_solve p m (p_F p) = Some w /\ 0 < dot w w /\ keepP s1 = keepP s /\ s_dUt s1 = w /\ s_phi s1 = s_phi s /\
    s_dU s1 = (1 / sqrt (dot w w)) *v w /\ s_dL s1 = 1 / sqrt (dot w w).
Proof.
  unfold firstPredictor. intros H HD. destruct (bind_inv _ _ _ _ H) as (w & s2 & E & H1). clear H.
  destruct (solve_at _ _ _ _ E) as (m & M1 & M2 & ->). exists m, w. split; [exact M1|]. split; [exact M2|]. cbv zeta in H1.
  change (s_dUt (set_dUt w (logEv (EvSolve m (p_F p) true) s))) with w in H1.
  change (s_DL (set_dUt w (logEv (EvSolve m (p_F p) true) s))) with (s_DL s) in H1. rewrite HD in H1.
  replace (dot w w + 0 * 1) with (dot w w) in H1 by ring. destruct (Rleb _ 0) eqn:Ez; [discriminate|]. apply Rleb_false in Ez.
  split; [exact Ez|]. injection H1 as <-. repeat split.
Qed.
(** both: the increment is a previous one, rescaled, or along the tangent *)
Lemma secant_predict k s sP : k = Riks \/ k = ConsistentCrisfield -> predict p o k (started k s) = Ret tt sP -> s_guess s = None ->
  (if close (s_U s) (s_L s) (s_Uprev s) (s_Lprev s) then
     exists w, tangent s w /\ 0 < dot w w /\ s_DU sP = (s_len s / sqrt (dot w w)) *v w /\ s_DL sP = s_len s / sqrt (dot w w) /\
       (k = ConsistentCrisfield -> o_phiUser o = false -> dot (p_F p) (p_F p) <> 0 /\ s_phi sP = sqrt (dot w w / dot (p_F p) (p_F p)))
   else s_lenPrev s <> 0 /\ s_DU sP = (s_len s / s_lenPrev s) *v (s_U s -v s_Uprev s) /\ s_DL sP = s_len s / s_lenPrev s * (s_L s - s_Lprev s)).
Proof.
  intros Hk H G. rewrite predict_none in H by (rewrite started_guess; exact G).
  assert (F : keepP (started k s) = (keep1 s, v0, 0, s_fact s)) by (destruct Hk; subst k; reflexivity).
  set (s0 := started k s) in *. clearbody s0. rewrite (secant_eq k s0 Hk) in H.
  destruct (bind_inv _ _ _ _ H) as ([] & s1 & E1 & H1). destruct (bind_inv _ _ _ _ H1) as ([] & s2 & E2 & H2).
  destruct (bind_inv _ _ _ _ H2) as ([] & s3 & E3 & H3). destruct (bind_inv _ _ _ _ H3) as ([] & s4 & E4 & H4). clear H H1 H2 H3.
  pose proof (keepOk (S:=S) (Mat:=Mat) keep4 _ _ _ _ (stepJacobian_keep p s0) E1) as K1.
  assert (FD : s_DU s0 = v0) by (injection F; auto). destruct (jacobian_at _ _ E1 FD) as (m & M1 & M2).
  pose proof (riksPhi_at _ _ _ E2) as K2. destruct (lastPhi_at _ _ _ E4) as (K4 & L1 & L2 & L3 & _).
  assert (P2 : keepP s2 = (keep1 s, v0, 0, Some m)).
  { rewrite K2. unfold keepP. rewrite M2. injection F. injection K1. intros. unfold keep1. congruence. }
  unfold secantOrFirst in E3.
  assert (C : close (s_U s2) (s_L s2) (s_Uprev s2) (s_Lprev s2) = close (s_U s) (s_L s) (s_Uprev s) (s_Lprev s)).
  { injection P2. intros. congruence. }
  rewrite C in E3. destruct (scale_at s4) as (R1 & R2 & R3). set (y := scaleStep false s4) in *. clearbody y. injection H4 as ->.
  destruct (close _ _ _ _).
  - destruct (first_at _ _ E3) as (m' & w & W1 & W2 & W3 & W4 & W5 & W6 & W7 & W8); [injection P2; auto|].
    exists w. rewrite W4, P2 in K4. injection K4. intros. injection P2. intros. injection F. intros.
    split; [exists (s_dU s0), m; split; [congruence|]; congruence|]. split; [exact W3|].
    rewrite R1, R2, R3, L1, L2, W7, W8. replace (s_DU s4) with (v0 (v := S)) by congruence. replace (s_DL s4) with 0 by congruence.
    replace (s_len s4) with (s_len s) by congruence. split; [|split].
    + unfold Rdiv. vring.
    + field. apply Rgt_not_eq. apply sqrt_lt_R0. exact W3.
    + rewrite W5 in L3. exact L3.
  - destruct (secant_at _ _ E3) as (W1 & W2 & W3 & W4). rewrite W2, P2 in K4. injection K4. intros. injection P2. intros.
    assert (EP : s_lenPrev s2 = s_lenPrev s) by congruence. rewrite EP in *. split; [exact W1|].
    rewrite R1, R2, L1, L2, W3, W4. replace (s_DU s4) with (v0 (v := S)) by congruence. replace (s_DL s4) with 0 by congruence.
    replace (s_len s4) with (s_len s) by congruence. replace (s_U s2) with (s_U s) by congruence. replace (s_Uprev s2) with (s_Uprev s) by congruence.
    replace (s_L s2) with (s_L s) by congruence. replace (s_Lprev s2) with (s_Lprev s) by congruence.
    split; [unfold Rdiv; vring|field; exact W1].
Qed.
End Methods.

(** ** C91 *)
(** Crisfield, with an increment of the previous step: the prediction is on the tangent, at
    the arc length and in the direction of the previous increment, unless the tangent is
    orthogonal to this one; then it is the old solution. *)
Theorem C91_crisfield_again {S : VS} {Mat} (p : problem S Mat) o (s s' : st S Mat) u l :
  (step p o Crisfield s = Ret tt s' \/ exists e, step p o Crisfield s = Exc e s') -> s_guess s = None ->
  s_DUold s <> v0 \/ s_DLold s <> 0 -> firstPoint s s' u l ->
  exists w, tangent p s w /\ u = s_U s +v (l - s_L s) *v w /\
    (arcDot p (s_phi s') (s_DUold s) (s_DLold s) w 1 <> 0 ->
       arcSq p (s_phi s') (u -v s_U s) (l - s_L s) = s_len s * s_len s /\
       (0 < s_len s -> 0 < arcDot p (s_phi s') (s_DUold s) (s_DLold s) (u -v s_U s) (l - s_L s))) /\
    (arcDot p (s_phi s') (s_DUold s) (s_DLold s) w 1 = 0 -> u = s_U s /\ l = s_L s).
Proof.
  intros H G Hne HF. destruct (first_point p o Crisfield s s' u l H HF) as (sP & EP & -> & -> & ->).
  destruct (crisfield_again p o s sP EP G Hne) as (w & T & E1 & E2). exists w. split; [exact T|].
  replace (s_L s + s_DL sP - s_L s) with (s_DL sP) by ring. replace (s_U s +v s_DU sP -v s_U s) with (s_DU sP) by vring.
  rewrite E1. split; [reflexivity|]. set (phi := s_phi sP) in *. set (ff := dot (p_F p) (p_F p)) in *.
  set (q := dot w w + phi * phi * ff) in *. set (g := dot (s_DUold s) w + phi * phi * ff * s_DLold s) in *.
  assert (Hff : 0 <= ff) by apply dot_pos. assert (Hww : 0 <= dot w w) by apply dot_pos.
  assert (Hpp : 0 <= phi * phi) by (pose proof (Rle_0_sqr phi) as Q; exact Q).
  assert (Hq : 0 <= q) by (unfold q; nra).
  replace (arcDot p phi (s_DUold s) (s_DLold s) w 1) with g by (unfold arcDot, g, ff; ring).
  assert (EA : arcDot p phi (s_DUold s) (s_DLold s) (s_DL sP *v w) (s_DL sP) = s_DL sP * g).
  { unfold arcDot, g, ff. autorewrite with dot. ring. }
  assert (ES : arcSq p phi (s_DL sP *v w) (s_DL sP) = s_DL sP * s_DL sP * q).
  { unfold arcSq, q, ff. autorewrite with dot. ring. }
  rewrite EA, ES. split.
  - intros Hg. assert (Hq0 : q <> 0).
    { intros E0. apply Hg. assert (W0 : dot w w = 0) by (unfold q in E0; nra). assert (P0 : phi * phi * ff = 0) by (unfold q in E0; nra).
      unfold g. rewrite (dot_zero S w W0), P0, dot_0_r. ring. }
    assert (Hs : 0 < sqrt q) by (apply sqrt_lt_R0; lra). rewrite (proj2 (Reqb_false (sqrt q) 0)) in E2 by lra.
    assert (Hsg : sign g * sign g = 1 /\ 0 < sign g * g).
    { unfold sign. destruct (Rltb 0 g) eqn:E3; [apply Rltb_true in E3; lra|]. apply Rltb_false in E3.
      destruct (Rltb g 0) eqn:E4; [apply Rltb_true in E4; lra|]. apply Rltb_false in E4. lra. }
    destruct Hsg as [S1 S2]. pose proof (sqrt_sqrt q Hq) as Hqq. rewrite E2. split.
    + replace (sign g * (s_len s / sqrt q) * (sign g * (s_len s / sqrt q)) * q) with ((sign g * sign g) * (s_len s * s_len s) * (q / (sqrt q * sqrt q))) by (field; lra).
      rewrite S1, Hqq. field. exact Hq0.
    + intros Hl. replace (sign g * (s_len s / sqrt q) * g) with ((sign g * g) * (s_len s / sqrt q)) by ring.
      apply Rmult_lt_0_compat; [exact S2|]. apply Rdiv_lt_0_compat; auto.
  - intros Hg. assert (E0 : s_DL sP = 0).
    { rewrite E2, Hg. unfold sign. rewrite (proj2 (Rltb_false 0 0)) by lra. ring. }
    rewrite E0. split; [vring|ring].
Qed.
Print Assumptions C91_crisfield_again.

(** Crisfield, without previous increment: at the arc length when phi is the default one *)
Theorem C91_crisfield_first_partial {S : VS} {Mat} (p : problem S Mat) o (s s' : st S Mat) u l :
  (step p o Crisfield s = Ret tt s' \/ exists e, step p o Crisfield s = Exc e s') -> s_guess s = None ->
  s_DUold s = v0 -> s_DLold s = 0 -> firstPoint s s' u l ->
  exists w, tangent p s w /\ 0 < dot w w /\ u = s_U s +v (l - s_L s) *v w /\
    arcSq p (s_phi s') (u -v s_U s) (l - s_L s) = s_len s * s_len s * ((1 + s_phi s' * s_phi s' * dot (p_F p) (p_F p) / dot w w) / 2) /\
    (o_phiUser o = false -> arcSq p (s_phi s') (u -v s_U s) (l - s_L s) = s_len s * s_len s) /\
    (o_phiUser o = true -> s_phi s' = s_phi s).
Proof.
  intros H G Z1 Z2 HF. destruct (first_point p o Crisfield s s' u l H HF) as (sP & EP & -> & -> & ->).
  destruct (crisfield_begins p o s sP EP G Z1 Z2) as (w & T & E1 & E2 & E3 & E4). exists w. split; [exact T|].
  replace (s_L s + s_DL sP - s_L s) with (s_DL sP) by ring. replace (s_U s +v s_DU sP -v s_U s) with (s_DU sP) by vring.
  rewrite E1. set (ww := dot w w) in *. set (ff := dot (p_F p) (p_F p)) in *.
  assert (Hw : 0 < ww).
  { destruct (Rle_lt_or_eq_dec _ _ (dot_pos S w)) as [X|X]; [exact X|]. exfalso. apply E2. fold ww in X. rewrite <- X, Rmult_0_r. apply sqrt_0. }
  split; [exact Hw|]. split; [reflexivity|].
  assert (Hs : 0 < sqrt (2 * ww)) by (apply sqrt_lt_R0; lra). assert (Hss : sqrt (2 * ww) * sqrt (2 * ww) = 2 * ww) by (apply sqrt_sqrt; lra).
  assert (ES : arcSq p (s_phi sP) (s_DL sP *v w) (s_DL sP) = s_len s * s_len s * ((1 + s_phi sP * s_phi sP * ff / ww) / 2)).
  { transitivity (s_DL sP * s_DL sP * (ww + s_phi sP * s_phi sP * ff)).
    - unfold arcSq, ww, ff. autorewrite with dot. ring.
    - rewrite E3. replace (s_len s / sqrt (2 * ww) * (s_len s / sqrt (2 * ww))) with (s_len s * s_len s / (sqrt (2 * ww) * sqrt (2 * ww))) by (field; lra).
      rewrite Hss. field. lra. }
  split; [exact ES|]. split; [|intros Hp; rewrite Hp in E4; exact E4]. intros Hp. rewrite Hp in E4. destruct E4 as [F1 F2]. rewrite ES. rewrite F2.
  assert (Hf : 0 < ff) by (destruct (Rle_lt_or_eq_dec _ _ (dot_pos S (p_F p))) as [X|X]; [exact X|exfalso; apply F1; symmetry; exact X]).
  rewrite sqrt_sqrt by (apply Rlt_le, Rdiv_lt_0_compat; auto). field. lra.
Qed.
Print Assumptions C91_crisfield_first_partial.
Example C91_crisfield_example : exists s, 
  step exSpring (exOpts 5) Crisfield (set_phi (3/8) (setSolutionStep (1 : VS_R) 1 (exSt VS_R R 5))) = Ret tt s /\
  firstPoint (set_phi (3/8) (setSolutionStep (1 : VS_R) 1 (exSt VS_R R 5))) s (4 : VS_R) 8 /\ arcDot exSpring (3/8) (1 : VS_R) 1 (1/2 : VS_R) 1 <> 0.
Proof.
  eexists. split; [ev|]. split.
  - eexists _, _. split; [rcbv; reflexivity|]. rcbv. repeat f_equal; lra.
  - unfold arcDot. cbn. lra.
Qed.
(** with a given phi the first prediction of Crisfield can have another length *)
Definition exFlat : problem (VS_prod VS_R VS_R) unit := @mkProblem (VS_prod VS_R VS_R) unit
  (fun u l => Some (fst u - l, snd u - l)) (fun _ _ => Some tt) (fun _ => true) (fun _ f => Some f) (fun _ x => x) (fun _ => [1; 1])
  (fun _ => Some [1; 1]) (1, 1) (1, 1) 2.
Theorem C91_crisfield_first_refuted : exists s' u l,
  outSt (step exFlat (exOpts 5) Crisfield (set_phi 7 (exSt _ unit 10))) = s' /\ firstPoint (set_phi 7 (exSt _ unit 10)) s' u l /\
  arcSq exFlat (s_phi s') u l = (5 * 10) * (5 * 10).
Proof.
  set (s := set_phi 7 (exSt (VS_prod VS_R VS_R) unit 10)).
  assert (EP : exists sP, predict exFlat (exOpts 5) Crisfield (started Crisfield s) = Ret tt sP).
  { eexists. ev. }
  destruct EP as (sP & EP). destruct (point_exists exFlat (exOpts 5) Crisfield s sP eq_refl EP) as (u & l & HF). exists (outSt (step exFlat (exOpts 5) Crisfield s)), u, l.
  split; [reflexivity|]. split; [exact HF|].
  assert (HO : step exFlat (exOpts 5) Crisfield s = Ret tt (outSt (step exFlat (exOpts 5) Crisfield s)) \/ exists e, step exFlat (exOpts 5) Crisfield s = Exc e (outSt (step exFlat (exOpts 5) Crisfield s))).
  { destruct (step exFlat (exOpts 5) Crisfield s) as [[] y|e y]; [left; reflexivity|right; exists e; reflexivity]. }
  destruct (C91_crisfield_first_partial exFlat (exOpts 5) s _ u l HO eq_refl eq_refl eq_refl HF) as (w & (du & m & _ & T) & _ & E1 & E2 & _ & E3).
  rewrite (E3 eq_refl) in *. cbn in T. injection T as <-. change (s_U s) with (v0 (v := VS_prod VS_R VS_R)) in E2. change (s_L s) with 0 in E2.
  change (s_phi s) with 7 in *. change (s_len s) with 10 in E2.
  replace (u -v v0) with u in E2 by vring. rewrite Rminus_0_r in E2. rewrite E2. cbn. lra.
Qed.
Print Assumptions C91_crisfield_first_refuted.

(** Riks and ConsistentCrisfield after a step: the last increment, scaled by the ratio of the
    lengths. It has the arc length in every metric in which the last increment had the
    previous one. *)
Theorem C91_secant_partial {S : VS} {Mat} (p : problem S Mat) o k (s s' : st S Mat) u l :
  k = Riks \/ k = ConsistentCrisfield -> (step p o k s = Ret tt s' \/ exists e, step p o k s = Exc e s') -> s_guess s = None ->
  close (s_U s) (s_L s) (s_Uprev s) (s_Lprev s) = false -> firstPoint s s' u l ->
  u = s_U s +v (s_len s / s_lenPrev s) *v (s_U s -v s_Uprev s) /\ l = s_L s + s_len s / s_lenPrev s * (s_L s - s_Lprev s) /\
  forall a b, a * dot (s_U s -v s_Uprev s) (s_U s -v s_Uprev s) + b * ((s_L s - s_Lprev s) * (s_L s - s_Lprev s)) = s_lenPrev s * s_lenPrev s ->
    a * dot (u -v s_U s) (u -v s_U s) + b * ((l - s_L s) * (l - s_L s)) = s_len s * s_len s.
Proof.
  intros Hk H G Hc HF. destruct (first_point p o k s s' u l H HF) as (sP & EP & -> & -> & _).
  pose proof (secant_predict p o k s sP Hk EP G) as Q. rewrite Hc in Q. destruct Q as (Q0 & Q1 & Q2). rewrite Q1, Q2.
  split; [reflexivity|]. split; [reflexivity|]. intros a b E.
  replace (s_L s + s_len s / s_lenPrev s * (s_L s - s_Lprev s) - s_L s) with (s_len s / s_lenPrev s * (s_L s - s_Lprev s)) by ring.
  set (d := s_U s -v s_Uprev s) in *. replace (s_U s +v (s_len s / s_lenPrev s) *v d -v s_U s) with ((s_len s / s_lenPrev s) *v d) by vring.
  autorewrite with dot.
  transitivity ((s_len s / s_lenPrev s) * (s_len s / s_lenPrev s) * (a * dot d d + b * ((s_L s - s_Lprev s) * (s_L s - s_Lprev s)))); [ring|].
  rewrite E. field. exact Q0.
Qed.
Print Assumptions C91_secant_partial.
(** setLength also replaces the previous length: the prediction after it is the last
    increment once more, whatever length is asked for. *)
Theorem C91_setLength_ignored {S : VS} {Mat} (p : problem S Mat) o k (s s' : st S Mat) len u l :
  k = Riks \/ k = ConsistentCrisfield ->
  (step p o k (setLength len s) = Ret tt s' \/ exists e, step p o k (setLength len s) = Exc e s') -> s_guess s = None -> len <> 0 ->
  close (s_U s) (s_L s) (s_Uprev s) (s_Lprev s) = false -> firstPoint s s' u l ->
  u = s_U s +v (s_U s -v s_Uprev s) /\ l = s_L s + (s_L s - s_Lprev s).
Proof.
  intros Hk H G Hl Hc HF. destruct (C91_secant_partial p o k (setLength len s) s' u l Hk H G Hc HF) as (E1 & E2 & _).
  cbn [s_U s_L s_Uprev s_Lprev setLength set_lenOri set_lenPrev set_len s_len s_lenPrev] in E1, E2.
  replace (len / len) with 1 in E1, E2 by (field; exact Hl). rewrite E1, E2. split; [vring|ring].
Qed.
Print Assumptions C91_setLength_ignored.
(** Bisection, as gsAPALM does it: the retry of a failed step with another length starts at
    the same point as the failed step. *)
Theorem C91_retry_same_start {S : VS} {Mat} (p : problem S Mat) o k (s s1 s2 : st S Mat) len1 len2 u1 l1 u2 l2 :
  k = Riks \/ k = ConsistentCrisfield -> s_guess s = None -> len1 <> 0 -> len2 <> 0 ->
  close (s_U s) (s_L s) (s_Uprev s) (s_Lprev s) = false ->
  step p o k (setLength len1 s) = Ret tt s1 -> s_stat s1 <> Success -> firstPoint s s1 u1 l1 ->
  step p o k (setSolution (s_U s) (s_L s) (setLength len2 s1)) = Ret tt s2 -> firstPoint s1 s2 u2 l2 ->
  s_guess s1 = None -> u2 = u1 /\ l2 = l1.
Proof.
  intros Hk G H1 H2 Hc E1 N1 F1 E2 F2 G1.
  destruct (C91_setLength_ignored p o k s s1 len1 u1 l1 Hk (or_introl E1) G H1 Hc F1) as [-> ->].
  destruct (C23_failed_step_keeps_solution p o k _ _ (or_introl (conj E1 N1))) as (K1 & K2 & _ & _ & _ & K6 & K7 & _).
  cbn [s_U s_L s_Uprev s_Lprev setLength set_lenOri set_lenPrev set_len] in K1, K2, K6, K7.
  set (s1' := setSolution (s_U s) (s_L s) s1).
  assert (F2' : firstPoint s1' s2 u2 l2) by exact F2.
  assert (Hc' : close (s_U s1') (s_L s1') (s_Uprev s1') (s_Lprev s1') = false).
  { unfold s1'. cbn [s_U s_L s_Uprev s_Lprev setSolution set_U set_L]. rewrite K6, K7. exact Hc. }
  destruct (C91_setLength_ignored p o k s1' s2 len2 u2 l2 Hk (or_introl E2) G1 H2 Hc' F2') as [-> ->].
  unfold s1'. cbn [s_U s_L s_Uprev s_Lprev setSolution set_U set_L]. rewrite K6, K7. auto.
Qed.
Print Assumptions C91_retry_same_start.
Definition exBlind : problem VS_R R := @mkProblem VS_R R
  (fun u l => if Rltb l 3 then Some (2 * u - l) else None) (fun _ _ => Some 2) (fun _ => true)
  (fun m f => Some (f / m)) (fun m x => m * x) (fun m => [m]) (fun m => Some [m]) 1 1 1.
Example C91_retry_example : exists s1 s2 (u1 u2 : VS_R) l1 l2, let s := setPrevious (0 : VS_R) 0 (setSolution (1 : VS_R) 2 (exSt VS_R R 1)) in
  step exBlind (exOpts 5) Riks (setLength 1 s) = Ret tt s1 /\ s_stat s1 = AssemblyError /\ firstPoint s s1 u1 l1 /\ s_guess s1 = None /\
  step exBlind (exOpts 5) Riks (setSolution (1 : VS_R) 2 (setLength (1/2) s1)) = Ret tt s2 /\ firstPoint s1 s2 u2 l2.
Proof.
  do 6 eexists. cbv zeta. split; [ev|]. split; [rcbv; reflexivity|]. split; [eexists _, _; split; [rcbv; reflexivity|]; rcbv; reflexivity|].
  split; [rcbv; reflexivity|]. split; [ev|]. eexists _, _; split; [rcbv; reflexivity|]; rcbv; reflexivity.
Qed.
(** half the length is asked for, the prediction has the old one *)
Theorem C91_secant_refuted : exists s' (u : VS_R) l, let s := setPrevious (0 : VS_R) 0 (setSolution (1 : VS_R) 2 (exSt VS_R R 1)) in
  outSt (step exSpring (exOpts 5) Riks (setLength (1/2) s)) = s' /\ firstPoint s s' u l /\ u = 2 /\ l = 4 /\
  1 <= riksSq (s_phi s') (u -v 1) (l - 2).
Proof.
  set (s := setPrevious (0 : VS_R) 0 (setSolution (1 : VS_R) 2 (exSt VS_R R 1))).
  assert (EP : exists sP, predict exSpring (exOpts 5) Riks (started Riks (setLength (1/2) s)) = Ret tt sP) by (eexists; ev).
  destruct EP as (sP & EP). destruct (point_exists exSpring (exOpts 5) Riks (setLength (1/2) s) sP eq_refl EP) as (u & l & HF).
  assert (HO : forall y : out VS_R R unit, y = Ret tt (outSt y) \/ exists e, y = Exc e (outSt y)).
  { intros [[] z|e z]; [left; reflexivity|right; exists e; reflexivity]. }
  destruct (first_point exSpring (exOpts 5) Riks _ _ u l (HO _) HF) as (sQ & EQ & _ & _ & Eph).
  rewrite predict_none in EQ by reflexivity. pose proof (riks_predictor_phi _ _ _ _ EQ) as Hphi. rewrite <- Eph in Hphi. clear EQ Eph.
  assert (Hc : close (s_U s) (s_L s) (s_Uprev s) (s_Lprev s) = false).
  { unfold close. apply andb_false_iff. right. apply Rltb_false. cbn. lra. }
  destruct (C91_setLength_ignored exSpring (exOpts 5) Riks s _ (1/2) u l (or_introl eq_refl) (HO _) eq_refl ltac:(lra) Hc HF) as [E1 E2].
  set (s' := outSt (step exSpring (exOpts 5) Riks (setLength (1/2) s))) in *. exists s', u, l. split; [reflexivity|]. split; [exact HF|].
  clearbody s'. cbn in E1, E2. assert (E1' : u = 2) by (rewrite E1; cbn; lra). assert (E2' : l = 4) by (rewrite E2; lra).
  split; [exact E1'|]. split; [exact E2'|]. rewrite E1', E2'. unfold riksSq. cbn. lra.
Qed.
Print Assumptions C91_secant_refuted.

(** the first prediction of Riks and ConsistentCrisfield: the displacement alone has the arc
    length. In Riks' metric this is the arc length only if the answer to the load is a unit
    vector; in that of ConsistentCrisfield, with the default phi, it is too long by sqrt 2. *)
Theorem C91_first_predictor {S : VS} {Mat} (p : problem S Mat) o k (s s' : st S Mat) u l :
  k = Riks \/ k = ConsistentCrisfield -> (step p o k s = Ret tt s' \/ exists e, step p o k s = Exc e s') -> s_guess s = None ->
  close (s_U s) (s_L s) (s_Uprev s) (s_Lprev s) = true -> firstPoint s s' u l ->
  exists w, tangent p s w /\ 0 < dot w w /\ u = s_U s +v (l - s_L s) *v w /\ dot (u -v s_U s) (u -v s_U s) = s_len s * s_len s /\
    (k = Riks -> s_len s <> 0 -> (riksSq (s_phi s') (u -v s_U s) (l - s_L s) = s_len s * s_len s <-> dot w w = 1)) /\
    (k = ConsistentCrisfield -> o_phiUser o = false -> arcSq p (s_phi s') (u -v s_U s) (l - s_L s) = 2 * (s_len s * s_len s)).
Proof.
  intros Hk H G Hc HF. destruct (first_point p o k s s' u l H HF) as (sP & EP & -> & -> & ->).
  pose proof (secant_predict p o k s sP Hk EP G) as Q. rewrite Hc in Q. destruct Q as (w & T & W & Q1 & Q2 & Q3). exists w. split; [exact T|].
  split; [exact W|]. replace (s_L s + s_DL sP - s_L s) with (s_DL sP) by ring. replace (s_U s +v s_DU sP -v s_U s) with (s_DU sP) by vring.
  assert (Hs : 0 < sqrt (dot w w)) by (apply sqrt_lt_R0; exact W). assert (Hss : sqrt (dot w w) * sqrt (dot w w) = dot w w) by (apply sqrt_sqrt; lra).
  assert (E1 : dot (s_DU sP) (s_DU sP) = s_len s * s_len s).
  { rewrite Q1. autorewrite with dot. transitivity (s_len s * s_len s * (dot w w / (sqrt (dot w w) * sqrt (dot w w)))); [field; lra|]. rewrite Hss. field. lra. }
  assert (E2 : s_DL sP * s_DL sP = s_len s * s_len s / dot w w).
  { rewrite Q2. rewrite <- Hss at 3. field. lra. }
  split; [rewrite Q1, Q2; reflexivity|]. split; [exact E1|]. split.
  - intros -> Hl. unfold riksSq. rewrite E1, E2. assert (Hp : 0 < s_phi sP < 1).
    { rewrite predict_none in EP by (rewrite started_guess; exact G). exact (riks_predictor_phi p o _ _ EP). }
    assert (L2 : 0 < s_len s * s_len s) by (pose proof (Rle_0_sqr (s_len s)) as X; unfold Rsqr in X; nra).
    set (ll := s_len s * s_len s) in *. set (ww := dot w w) in *. split.
    + intros E. assert (E' : (1 - s_phi sP) * ll * (1 / ww - 1) = 0) by (replace (ll / ww) with (ll * (1 / ww)) in E by (field; lra); lra).
      assert (1 / ww = 1) by (destruct (Rmult_integral _ _ E') as [X|X]; nra).
      replace ww with (1 / (1 / ww)) by (field; lra). rewrite H0. field.
    + intros ->. field.
  - intros -> Hu. destruct (Q3 eq_refl Hu) as [F1 F2]. unfold arcSq. rewrite E1, E2, F2.
    assert (Hf : 0 < dot (p_F p) (p_F p)) by (destruct (Rle_lt_or_eq_dec _ _ (dot_pos S (p_F p))) as [X|X]; [exact X|exfalso; apply F1; symmetry; exact X]).
    rewrite sqrt_sqrt by (apply Rlt_le, Rdiv_lt_0_compat; auto). field. lra.
Qed.
Print Assumptions C91_first_predictor.
Example C91_first_example : exists s (u : VS_R) l, step exSpring (exOpts 5) Riks (exSt VS_R R 3) = Ret tt s /\ s_stat s = Success /\
  firstPoint (exSt VS_R R 3) s u l.
Proof. eexists _, _, _. split; [ev|]. split; [rcbv; reflexivity|]. eexists _, _. split; [rcbv; reflexivity|]. rcbv. reflexivity. Qed.
