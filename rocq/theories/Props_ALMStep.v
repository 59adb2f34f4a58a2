(** Properties of step() of the arc-length solvers: C23-C26, C32, C33, C72. *)
From Verif Require Import VS Status RunTac ALMBase ALMBaseProofs ALMStep ALMLog ALMPoints ALMRun.
Local Open Scope R_scope.

(** what step() gives back: the status, or what stops it *)
Section StepFacts.
Context {S : VS} {Mat : Type}.
Variable p : problem S Mat.
Variable o : opts.
Implicit Types s : st S Mat.

Lemma step_failed k s : (exists e s', step_ p o k s = Exc e s') -> keep1 (outSt (step_ p o k s)) = keep1 s.
Proof.
  intros (e & s' & E). destruct (s_initialized s) eqn:Hi.
  - destruct (step_spec p o k s Hi) as [(e2 & s2 & E2 & K)|(sP & s2 & P & E2)].
    + rewrite E2. exact K.
    + rewrite E in E2. pose proof (stepLoop_spec p o k (o_maxIt o - 1) 1 s2 ltac:(lia)) as L. rewrite <- E2 in L.
      rewrite E. cbn [outSt]. rewrite L. apply P.
  - unfold step_ in *. rewrite Hi in *. reflexivity.
Qed.
Lemma statusOf_fail e t : statusOf e = Some t -> t <> Success.
Proof. destruct e as [| |n| | | |]; cbn; try congruence. destruct n as [|[[]|[]|]|]; congruence. Qed.
(** step() in terms of _step() *)
Lemma step_cases k s :
  (exists s1, step_ p o k s = Ret tt s1 /\ step p o k s = Ret tt (set_stat Success s1)) \/
  (exists e s1, step_ p o k s = Exc e s1 /\
     ((exists t, statusOf e = Some t /\ t <> Success /\ step p o k s = Ret tt (set_stat t s1)) \/
      (statusOf e = None /\ step p o k s = Exc e s1))).
Proof.
  unfold step. destruct (step_ p o k s) as [[] s1|e s1]; [left; eauto|]. right. exists e, s1. split; [reflexivity|].
  destruct (statusOf e) as [t|] eqn:Et; [|auto]. left. exists t. split; [reflexivity|]. split; [|reflexivity].
  apply (statusOf_fail e). exact Et.
Qed.
End StepFacts.

(** ** C23: a failed step leaves the solution and the arc length untouched *)
(** [s] is the solver before the call, [s'] after it. A call that is stopped otherwise than
    by a status (division by zero in the model) leaves them untouched, too. *)
Theorem C23_failed_step_keeps_solution {S : VS} {Mat} (p : problem S Mat) o k s s' :
  (step p o k s = Ret tt s' /\ s_stat s' <> Success) \/ (exists e, step p o k s = Exc e s') ->
  s_U s' = s_U s /\ s_L s' = s_L s /\ s_len s' = s_len s /\ s_lenPrev s' = s_lenPrev s /\
  s_adaptive s' = s_adaptive s /\ s_Uprev s' = s_Uprev s /\ s_Lprev s' = s_Lprev s /\ s_initialized s' = s_initialized s.
Proof.
  intros H. destruct (step_cases p o k s) as [(s1 & E1 & E2)|(e & s1 & E1 & E2)].
  - exfalso. destruct H as [[H1 H2]|[e H1]]; rewrite H1 in E2; [|discriminate]. injection E2 as ->. apply H2. reflexivity.
  - pose proof (step_failed p o k s ltac:(eauto)) as K. rewrite E1 in K. cbn [outSt] in K.
    assert (keep1 s' = keep1 s) as K'.
    { destruct E2 as [(t & _ & _ & E2)|[_ E2]]; destruct H as [[H1 H2]|[e' H1]]; rewrite H1 in E2; try discriminate.
      - injection E2 as ->. exact K.
      - injection E2 as _ ->. exact K. }
    injection K'. intros. repeat split; assumption.
Qed.
Print Assumptions C23_failed_step_keeps_solution.
(** a residual evaluation that fails once the load exceeds 2 *)
Definition exBroken : problem VS_R R := @mkProblem VS_R R
  (fun u l => if Rltb 2 l then None else Some (2 * u - l)) (fun _ _ => Some 2) (fun _ => true)
  (fun m f => Some (f / m)) (fun m x => m * x) (fun m => [m]) (fun m => Some [m]) 1 1 1.
Example C23_example : exists s, step exBroken (exOpts 5) LoadControl (setSolution (1 : VS_R) 2 (exSt VS_R R 3)) = Ret tt s /\
  s_stat s = AssemblyError /\ s_DU s <> 0 /\ s_L s = 2.
Proof. eexists. split; [ev|]. rcbv. repeat split; lra. Qed.

(** ** C24: a successful step satisfies the tolerances *)
(** [evs] is the part of the log written by the call; the first residual evaluation is at the
    predictor, the last one at the new solution, [pts] are the points in between. *)
Theorem C24_success_meets_tolerances_partial {S : VS} {Mat} (p : problem S Mat) o k s s' :
  (2 <= o_maxIt o)%nat ->
  step p o k s = Ret tt s' -> s_stat s' = Success ->
  exists evs u0 l0 pts r,
    s_log s' = s_log s ++ evs /\ points evs = (u0, l0) :: pts ++ [(s_U s', s_L s')] /\
    p_residual p (s_U s') (s_L s') = Some r /\
    0 < norm (l0 *v p_F p) /\ norm r < o_tolF o * norm (l0 *v p_F p) /\
    0 < norm (u0 -v s_U s) /\ norm (s_U s' -v fst (last pts (u0, l0))) < o_tolU o * norm (u0 -v s_U s).
Proof.
  intros Hm H Hs. destruct (step_cases p o k s) as [(s1 & E1 & E2)|(e & s1 & E1 & [(t & _ & Ht & E2)|[_ E2]])];
  rewrite H in E2; try discriminate; injection E2 as ->; [|contradiction].
  destruct (step_points p o k s s1 E1 Hm) as (evs & u0 & l0 & pts & r & A1 & A2 & A3 & A4 & A5).
  exists evs, u0, l0, pts, r. split; [exact A1|]. split; [exact A2|]. split; [exact A3|].
  assert (G : forall a b t, oltb (rdiv a b) t = true -> 0 <= b -> 0 < b /\ a < t * b).
  { intros a b t. unfold rdiv. destruct (Reqb b 0) eqn:Eb; [discriminate|]. cbn [oltb]. rewrite Rltb_true.
    apply Reqb_false in Eb. intros Hl Hb. assert (0 < b) by lra. split; [assumption|].
    apply (Rmult_lt_compat_r b) in Hl; [|assumption]. replace (a / b * b) with a in Hl by (field; lra). lra. }
  apply G in A4; [|apply norm_pos]. apply G in A5; [|apply norm_pos]. tauto.
Qed.
Print Assumptions C24_success_meets_tolerances_partial.
Example C24_example : exists s, step exSpring (exOpts 5) LoadControl (exSt VS_R R 3) = Ret tt s /\ s_stat s = Success /\
  s_U s = 3/2 /\ (2 <= o_maxIt (exOpts 5))%nat.
Proof. eexists. split; [ev|]. rcbv. repeat split; first [lra | repeat constructor]. Qed.
(** With MaxIter = 1 step() returns Success without any iteration: here the solution, which
    was not in equilibrium, is returned unchanged; the residual has size 2, the load of the
    predictor size 3, TolF is 1/100. *)
Theorem C24_refuted : exists (s s' : st VS_R R), s_initialized s = true /\
  step exSpring (exOpts 1) LoadControl s = Ret tt s' /\ s_stat s' = Success /\ s_conv s' = false /\
  s_U s' = s_U s /\ s_L s' = s_L s /\ s_L s + s_len s = 3 /\
  p_residual exSpring (s_U s') (s_L s') = Some 2 /\ 2 > o_tolF (exOpts 1) * norm (3 *v p_F exSpring).
Proof.
  exists (setSolution (1 : VS_R) 0 (exSt VS_R R 3)). eexists. split; [reflexivity|]. split; [ev|]. rcbv.
  repeat split; try lra; try (f_equal; lra).
  unfold norm. cbn. replace (3 * 1 * (3 * 1)) with (3 * 3) by ring. rewrite sqrt_square; lra.
Qed.
Print Assumptions C24_refuted.

(** ** C25: the status tells the kind of failure *)
Lemma finished_test {S : VS} {Mat} (o : opts) k (s s' : st S Mat) : finished o k s s' -> convergedTest o s' = convergedTest o s.
Proof.
  unfold finished, convergedTest. cbv zeta. intros H. set (s7 := iterationFinish o k s) in *.
  assert (E : s_resF s7 = s_resF s /\ s_resU s7 = s_resU s).
  { unfold s7, iterationFinish. destruct k; cbn; auto. destruct (o_angle o); auto. }
  clearbody s7. destruct E as [E1 E2]. rewrite <- E1, <- E2. destruct (s_adaptive s7).
  - unfold computeLength in H. destruct (Nat.eqb _ _); [discriminate|]. cbv zeta in H. injection H as <-. reflexivity.
  - injection H as <-. reflexivity.
Qed.
Lemma success_test {S : VS} {Mat} (p : problem S Mat) o k s s' : step_ p o k s = Ret tt s' ->
  (2 <= o_maxIt o)%nat -> convergedTest o s' = true.
Proof.
  intros H Hm. destruct (s_initialized s) eqn:Hi; [|unfold step_ in H; rewrite Hi in H; discriminate].
  destruct (step_spec p o k s Hi) as [(e & s'' & E & _)|(sP & s2 & P & E)]; [congruence|].
  rewrite E in H. pose proof (stepLoop_spec p o k (o_maxIt o - 1) 1 s2 ltac:(lia)) as L. rewrite H in L.
  destruct L as [[Hn _]|(s0 & sI & sJ & s1 & A1 & A2 & A3 & A4 & A5 & A6 & A7 & A8 & A9 & A10)]; [lia|].
  rewrite (finished_test _ _ _ _ A10). exact A9.
Qed.
(** an evaluation of the residual or the Jacobian that failed; a factorisation or a linear
    solve that failed *)
Definition evaluationFailed {S : VS} {Mat} (evs : list (event S Mat)) : Prop :=
  (exists u l, In (EvResidual u l false) evs) \/ (exists u du, In (EvJacobian u du false) evs).
Definition solveFailed {S : VS} {Mat} (evs : list (event S Mat)) : Prop :=
  (exists m, In (EvFactor m false) evs) \/ (exists m f, In (EvSolve m f false) evs).
Definition residualCalls {S : VS} {Mat} (evs : list (event S Mat)) : nat := length (points evs).
(** the test of both tolerances on the residuals reported by residueF() and residueU() *)
Definition toleranceMet {S : VS} {Mat} (o : opts) (s : st S Mat) : Prop :=
  exists f u, s_resF s = Some f /\ s_resU s = Some u /\ f < o_tolF o /\ u < o_tolU o.
Lemma toleranceMet_test {S : VS} {Mat} o (s : st S Mat) : toleranceMet o s <-> convergedTest o s = true.
Proof.
  unfold toleranceMet, convergedTest, oltb. rewrite andb_true_iff. split.
  - intros (f & u & -> & -> & H1 & H2). rewrite !Rltb_true. auto.
  - destruct (s_resF s) as [f|], (s_resU s) as [u|]; rewrite ?Rltb_true; intros [H1 H2]; try discriminate. exists f, u. auto.
Qed.
Lemma clean_fail {S : VS} {Mat} (evs : list (event S Mat)) : clean evs -> ~ evaluationFailed evs /\ ~ solveFailed evs.
Proof.
  intros C. split; intros [H|H].
  - destruct H as (u & l & H). destruct (C _ H) as [H1 _]. discriminate H1.
  - destruct H as (u & l & H). destruct (C _ H) as [H1 _]. discriminate H1.
  - destruct H as (m & H). destruct (C _ H) as [_ H1]. discriminate H1.
  - destruct H as (m & f & H). destruct (C _ H) as [_ H1]. discriminate H1.
Qed.
Lemma asm_last {S : VS} {Mat} (pre : list (event S Mat)) ev : clean pre -> asmFail ev = true ->
  evaluationFailed (pre ++ [ev]) /\ ~ solveFailed (pre ++ [ev]).
Proof.
  intros C H. split.
  - destruct ev as [u l []|u du []|m ok|m f ok|m ok]; try discriminate H; [left|right]; exists u; eexists; apply in_or_app; right; left; reflexivity.
  - intros [(m & D)|(m & f & D)]; apply in_app_or in D; destruct D as [D|[D|[]]].
    + apply C in D. destruct D as [_ D]. discriminate D.
    + rewrite D in H. discriminate H.
    + apply C in D. destruct D as [_ D]. discriminate D.
    + rewrite D in H. discriminate H.
Qed.
Lemma lin_last {S : VS} {Mat} (pre : list (event S Mat)) ev : clean pre -> linFail ev = true ->
  solveFailed (pre ++ [ev]) /\ ~ evaluationFailed (pre ++ [ev]).
Proof.
  intros C H. split.
  - destruct ev as [u l ok|u du ok|m []|m f []|m ok]; try discriminate H; [left; exists m|right; exists m, f]; apply in_or_app; right; left; reflexivity.
  - intros [(m & f & D)|(m & f & D)]; apply in_app_or in D; destruct D as [D|[D|[]]].
    + apply C in D. destruct D as [D _]. discriminate D.
    + rewrite D in H. discriminate H.
    + apply C in D. destruct D as [D _]. discriminate D.
    + rewrite D in H. discriminate H.
Qed.
(** [wellPosed]: a known bifurcation method, and the stability vector is not empty. The only
    way not to return a status is [ENaN], a division by zero, after which the code computes on
    with NaN. *)
Theorem C25_status_kind_partial {S : VS} {Mat} (p : problem S Mat) o k s :
  wellPosed p o -> s_initialized s = true ->
  exists evs, s_log (outSt (step p o k s)) = s_log s ++ evs /\
    (residualCalls evs <= Nat.max 1 (o_maxIt o))%nat /\
    match step p o k s with
    | Ret _ s' =>
      (s_stat s' = AssemblyError <-> evaluationFailed evs) /\
      (s_stat s' = SolverError <-> solveFailed evs) /\
      (s_stat s' = NotConverged <-> ~ evaluationFailed evs /\ ~ solveFailed evs /\ ~ toleranceMet o s' /\ (2 <= o_maxIt o)%nat) /\
      (s_stat s' = Success <-> ~ evaluationFailed evs /\ ~ solveFailed evs /\ (toleranceMet o s' \/ (o_maxIt o <= 1)%nat)) /\
      (s_stat s' = NotConverged -> residualCalls evs = o_maxIt o) /\
      s_stat s' <> NotStarted /\ s_stat s' <> OtherError
    | Exc e s' => e = ENaN
    end.
Proof.
  intros W Hi. destruct (log_step p o k s Hi) as (evs & L & N & M). exists evs.
  unfold residualCalls. rewrite <- nres_points.
  destruct (step_cases p o k s) as [(s1 & E1 & E2)|(e & s1 & E1 & E2)].
  - rewrite E2. rewrite E1 in L, M. cbn [outSt] in *. split; [exact L|]. split; [exact N|].
    destruct (clean_fail _ M) as [M1 M2]. cbn [s_stat set_stat].
    assert (T : (o_maxIt o <= 1)%nat \/ ((2 <= o_maxIt o)%nat /\ toleranceMet o s1)).
    { destruct (le_lt_dec (o_maxIt o) 1) as [Hm|Hm]; [left; lia|right]. split; [lia|].
      apply toleranceMet_test. eapply success_test; [exact E1|lia]. }
    change (toleranceMet o (set_stat Success s1)) with (toleranceMet o s1).
    repeat split; try congruence; try tauto.
    intros (_ & _ & H1 & H2). exfalso. destruct T as [T|[_ T]]; [lia|contradiction].
  - assert (St : s_log (outSt (step p o k s)) = s_log s ++ evs).
    { rewrite E1 in L. cbn [outSt] in L. destruct E2 as [(t & _ & _ & E2)|[_ E2]]; rewrite E2; exact L. }
    split; [exact St|]. split; [exact N|]. rewrite E1 in M.
    destruct M as [(pre & ev & -> & C & M)|[(C & M)|(C & M1 & M2 & M3 & M4)]].
    + destruct M as [[-> F]|[-> F]].
      * destruct E2 as [(t & Et & _ & E2)|[Et _]]; [|discriminate]. cbn in Et. injection Et as <-. rewrite E2.
        destruct (asm_last pre ev C F) as [F1 F2]. cbn [s_stat set_stat]. repeat split; try congruence; try tauto.
      * destruct E2 as [(t & Et & _ & E2)|[Et _]]; [|discriminate]. cbn in Et. injection Et as <-. rewrite E2.
        destruct (lin_last pre ev C F) as [F1 F2]. cbn [s_stat set_stat]. repeat split; try congruence; try tauto.
    + destruct M as [->|[_ M]]; [|contradiction]. destruct E2 as [(t & Et & _ & E2)|[Et E2]]; [discriminate|].
      rewrite E2. reflexivity.
    + subst e. destruct E2 as [(t & Et & _ & E2)|[Et _]]; [|discriminate]. cbn in Et. injection Et as <-. rewrite E2.
      destruct (clean_fail _ C) as [C1 C2]. cbn [s_stat set_stat].
      change (toleranceMet o (set_stat NotConverged s1)) with (toleranceMet o s1).
      assert (~ toleranceMet o s1) by (rewrite toleranceMet_test; congruence).
      repeat split; try congruence; try tauto.
      intros (_ & _ & [H0|H0]); [contradiction|lia].
Qed.
Print Assumptions C25_status_kind_partial.
(** a solver that was not initialised reports OtherError *)
Theorem C25_uninitialised {S : VS} {Mat} (p : problem S Mat) o k s :
  s_initialized s = false -> step p o k s = Ret tt (set_stat OtherError s).
Proof. intros H. unfold step, step_. rewrite H. reflexivity. Qed.
Print Assumptions C25_uninitialised.
(** with MaxIter = 1 the limit is reached before the first iteration, the tolerances are not
    met, and the status is Success *)
Theorem C25_refuted : exists (s s' : st VS_R R), wellPosed exSpring (exOpts 1) /\ s_initialized s = true /\
  step exSpring (exOpts 1) LoadControl s = Ret tt s' /\ s_stat s' = Success /\ ~ toleranceMet (exOpts 1) s'.
Proof.
  exists (setSolution (1 : VS_R) 0 (exSt VS_R R 3)). eexists. split; [|split; [reflexivity|split; [ev|]]].
  - unfold wellPosed. cbn. repeat split; try (intros; congruence); try lia.
  - rcbv. split; [reflexivity|]. intros (f & u & H1 & H2 & H3 & H4). rcbv. cbn in H1. injection H1 as <-. cbn in H3. lra.
Qed.
Print Assumptions C25_refuted.
(** a stiffening spring that does not converge within three evaluations *)
Definition exHard : problem VS_R R := @mkProblem VS_R R
  (fun u l => Some (2 * u + u * u * u - l)) (fun _ _ => Some 2) (fun _ => true)
  (fun m f => Some (f / m)) (fun m x => m * x) (fun m => [m]) (fun m => Some [m]) 1 1 1.
Example C25_example_notConverged : exists s, step exHard (exOpts 3) LoadControl (exSt VS_R R 3) = Ret tt s /\
  s_stat s = NotConverged /\ residualCalls (s_log s) = 3%nat.
Proof. eexists. split; [ev|]. rcbv. split; reflexivity. Qed.
Example C25_example_solver : exists s, step (@mkProblem VS_R R
  (fun u l => Some (2 * u - l)) (fun _ _ => Some 2) (fun _ => false)
  (fun m f => Some (f / m)) (fun m x => m * x) (fun m => [m]) (fun m => Some [m]) 1 1 1) (exOpts 3) Riks (exSt VS_R R 3) = Ret tt s /\
  s_stat s = SolverError.
Proof. eexists. split; [ev|]. rcbv. reflexivity. Qed.

(** [n] calls of step() in a row, whatever status they return *)
Fixpoint stepN {S : VS} {Mat} (p : problem S Mat) o k (n : nat) s : out S Mat unit :=
  match n with O => Ret tt s | Datatypes.S n => obind (step p o k s) (fun _ s => stepN p o k n s) end.

(** everything a call that returns does to the members which outlive it *)
Lemma step_outcome {S : VS} {Mat} (p : problem S Mat) o k s s' : step p o k s = Ret tt s' ->
  (s_stat s' <> Success /\ keep1 s' = keep1 s) \/
  (s_stat s' = Success /\ (o_maxIt o <= 1)%nat /\ keep1 s' = keep1 s) \/
  (s_stat s' = Success /\ (2 <= o_maxIt o)%nat /\ exists sP sI sJ s1 s7, converged p o k s sP sI sJ s1 s7 /\ s' = set_stat Success s7).
Proof.
  intros H. destruct (step_cases p o k s) as [(s1 & E1 & E2)|(e & s1 & E1 & E2)].
  - rewrite H in E2. injection E2 as ->. right. cbn [s_stat set_stat].
    destruct (step_success p o k s s1 E1) as [_ [(A & B & _)|(A & sP & sI & sJ & s2 & B)]].
    + left. auto.
    + right. split; [reflexivity|]. split; [exact A|]. exists sP, sI, sJ, s2, s1. auto.
  - left. pose proof (step_failed p o k s ltac:(eauto)) as K. rewrite E1 in K. cbn [outSt] in K.
    destruct E2 as [(t & _ & Ht & E2)|[_ E2]]; rewrite H in E2; [|discriminate]. injection E2 as ->. auto.
Qed.

(** ** C26: the adaptive arc length *)
Lemma quot_factor (d n : Z) : let f := IZR (Z.quot d n) in
  (if Rltb f (1/2) then 1/2 else if Rltb 2 f then 2 else f) = 1/2 \/
  (if Rltb f (1/2) then 1/2 else if Rltb 2 f then 2 else f) = 1 \/
  (if Rltb f (1/2) then 1/2 else if Rltb 2 f then 2 else f) = 2.
Proof.
  cbv zeta. generalize (Z.quot d n). intros z. destruct (Rltb (IZR z) (1/2)) eqn:E1; [auto|].
  destruct (Rltb 2 (IZR z)) eqn:E2; [auto|]. apply Rltb_false in E1, E2. right.
  assert (0 < z)%Z by (apply lt_IZR; lra). assert (z <= 2)%Z by (apply le_IZR; lra).
  assert (z = 1 \/ z = 2)%Z as [->| ->] by lia; auto.
Qed.
Theorem C26_length_factor {S : VS} {Mat} (p : problem S Mat) o k s s' :
  step p o k s = Ret tt s' ->
  s_adaptive s' = s_adaptive s /\
  (s_adaptive s = false -> s_len s' = s_len s) /\
  (s_stat s' <> Success -> s_len s' = s_len s) /\
  (s_stat s' = Success -> s_len s' = s_len s * (1/2) \/ s_len s' = s_len s * 1 \/ s_len s' = s_len s * 2).
Proof.
  intros H. destruct (step_outcome p o k s s' H) as [(A & K)|[(A & _ & K)|(A & _ & sP & sI & sJ & s1 & s7 & C & ->)]].
  - injection K. intros. repeat split; auto. intros; contradiction.
  - injection K. intros. repeat split; auto. intros. right. left. lra.
  - destruct C as [_ C1 (C2 & _) C3 _ _ _ _ F].
    pose proof (keepOk (S:=S) (Mat:=Mat) keep3 _ sI _ _ (iteration_keep p o k sI) C1) as K.
    apply keep43 in C3. rewrite K in C3. apply keep32, keep21 in C3. rewrite C2 in C3. injection C3. intros.
    destruct (finished_UL o k s1 s7 F) as (_ & _ & _ & _ & _ & _ & _ & _ & _ & _ & _ & _ & E1 & _ & _ & E2).
    cbn [s_adaptive s_len s_stat set_stat]. split; [congruence|]. split; [|split].
    + intros Ha. rewrite E2. replace (s_adaptive s1) with false by congruence. assumption.
    + intros; contradiction.
    + intros _. rewrite E2. replace (s_len s1) with (s_len s) by congruence. destruct (s_adaptive s1); [|right; left; lra].
      cbv zeta. destruct (quot_factor (s_desired s1) (Z.of_nat (s_numIt s1))) as [Q|[Q|Q]]; cbv zeta in Q; rewrite Q; auto.
Qed.
Print Assumptions C26_length_factor.
Theorem C26_length_positive {S : VS} {Mat} (p : problem S Mat) o k n s s' :
  stepN p o k n s = Ret tt s' -> 0 < s_len s ->
  0 < s_len s' /\ s_len s / 2 ^ n <= s_len s' <= s_len s * 2 ^ n /\ (s_adaptive s = false -> s_len s' = s_len s).
Proof.
  revert s. induction n as [|n IH]; intros s H L.
  - cbn in H. injection H as <-. cbn [pow]. repeat split; lra.
  - cbn [stepN] in H. destruct (step p o k s) as [[] s1|] eqn:E; [|discriminate]. cbn [obind] in H.
    destruct (C26_length_factor p o k s s1 E) as (A & B & C & D).
    assert (P : 0 < s_len s1 /\ s_len s / 2 <= s_len s1 <= s_len s * 2).
    { destruct (s_stat s1) eqn:Es; try (rewrite C by congruence; lra).
      destruct (D eq_refl) as [-> |[-> | ->]]; lra. }
    destruct (IH s1 H (proj1 P)) as (P1 & P2 & P3). split; [exact P1|]. split.
    + assert (0 < 2 ^ n) by (apply pow_lt; lra). assert (0 < / 2 ^ n) by (apply Rinv_0_lt_compat; lra).
      split.
      * eapply Rle_trans; [|apply P2]. replace (s_len s / 2 ^ Datatypes.S n) with (s_len s / 2 * / 2 ^ n) by (cbn [pow]; field; lra).
        unfold Rdiv at 2. apply Rmult_le_compat_r; lra.
      * eapply Rle_trans; [apply P2|]. cbn [pow]. replace (s_len s * (2 * 2 ^ n)) with (s_len s * 2 * 2 ^ n) by ring.
        apply Rmult_le_compat_r; lra.
    + intros Ha. rewrite P3 by congruence. apply B. exact Ha.
Qed.
Print Assumptions C26_length_positive.
Example C26_example : exists s, stepN exSpring (exOpts 5) LoadControl 2 (set_adaptive true (exSt VS_R R 3)) = Ret tt s /\
  s_len s = 12 /\ s_L s = 9.
Proof. eexists. split; [cbn [stepN]; ev|]. rcbv. split; lra. Qed.

(** ** C32: load control *)
Lemma load_pass {S : VS} {Mat} (p : problem S Mat) o (s sI sJ s1 : st S Mat) :
  pass p o LoadControl s sI sJ s1 -> s_DL s1 = s_DL s.
Proof.
  intros [P1 P2 P3 _ _ _]. unfold iteration in P1. destruct (computeUbar p sI) as [[] sa|] eqn:E; [|discriminate].
  pose proof (keepOk (S:=S) (Mat:=Mat) keep4 _ sI _ _ (computeUbar_keep p sI) E) as K. cbn [obind] in P1. injection P1 as <-.
  injection K. injection P2. injection P3. intros. cbn in *. congruence.
Qed.
Lemma load_loop {S : VS} {Mat} (p : problem S Mat) o : forall n i (s s' : st S Mat), (1 <= i)%nat -> n <> 0%nat ->
  stepLoop p o LoadControl n i s = Ret tt s' -> s_L s' = s_L s + s_DL s.
Proof.
  induction n as [|n IH]; intros i s s' Hi Hn H; [contradiction|].
  destruct (stepLoop_body p o LoadControl n i s Hi) as [(e & s2 & E & _)|(sI & sJ & s1 & P & E)]; [congruence|].
  pose proof (load_pass p o _ _ _ _ P) as D. pose proof (pass_keep3 _ _ _ _ _ _ _ P) as K. injection K. intros.
  rewrite E in H. destruct (convergedTest o s1).
  - destruct (finished_UL o LoadControl s1 s' H) as (_ & EL & _). rewrite EL. cbn in *. congruence.
  - destruct n as [|n]; [discriminate|]. rewrite (IH (Datatypes.S i) s1 s' ltac:(lia) ltac:(discriminate) H). cbn in *. congruence.
Qed.
Lemma predict_noGuess {S : VS} {Mat} (p : problem S Mat) o k (s : st S Mat) : s_guess s = None -> predict p o k s = predictor p o k s.
Proof. intros H. unfold predict. rewrite H. reflexivity. Qed.
Lemma load_predictor {S : VS} {Mat} (p : problem S Mat) o (s s' : st S Mat) :
  predictor p o LoadControl s = Ret tt s' -> s_DL s' = s_len s /\ s_guess s' = s_guess s.
Proof.
  unfold predictor. intros H. destruct (stepJacobian p s) as [[] s1|] eqn:E1; [|discriminate]. cbn [obind] in H. cbv zeta in H.
  pose proof (keepOk (S:=S) (Mat:=Mat) keep4 _ s _ _ (stepJacobian_keep p s) E1) as K1.
  destruct (computeUt p _) as [[] s2|] eqn:E2; [|discriminate]. cbn [obind] in H. injection H as <-.
  pose proof (keepOk (S:=S) (Mat:=Mat) keep4 _ _ _ _ (computeUt_keep p _) E2) as K2.
  injection K1. injection K2. intros. cbn in *. split; congruence.
Qed.
(** the guess in the state after a step *)
Lemma step_guess_converged {S : VS} {Mat} (p : problem S Mat) o k s sP sI sJ s1 s7 :
  converged p o k s sP sI sJ s1 s7 -> s_guess s7 = s_guess sP.
Proof.
  intros [_ C1 (_ & _ & C2) C3 _ _ _ _ F]. destruct (finished_UL o k s1 s7 F) as (_ & _ & _ & _ & _ & G & _).
  pose proof (keepOk (S:=S) (Mat:=Mat) keep3 _ sI _ _ (iteration_keep p o k sI) C1) as K. apply keep43 in C3.
  injection K. injection C3. intros. congruence.
Qed.
Theorem C32_load_control_partial {S : VS} {Mat} (p : problem S Mat) o s s' :
  (2 <= o_maxIt o)%nat -> s_guess s = None -> step p o LoadControl s = Ret tt s' ->
  (s_stat s' = Success -> s_L s' = s_L s + s_len s) /\
  (s_stat s' <> Success -> s_L s' = s_L s).
Proof.
  intros Hm G H. destruct (step_cases p o LoadControl s) as [(s1 & E1 & E2)|(e & s1 & E1 & E2)].
  - rewrite H in E2. injection E2 as ->. cbn [s_stat set_stat]. split; [intros _|congruence].
    cbn [s_L set_stat].
    destruct (s_initialized s) eqn:Hi; [|unfold step_ in E1; rewrite Hi in E1; discriminate].
    destruct (step_spec p o LoadControl s Hi) as [(e & s'' & E & _)|(sP & s2 & P & E)]; [congruence|].
    rewrite E1 in E. symmetry in E. apply load_loop in E; [|lia|lia]. rewrite E. destruct P as [P1 P2 _ _ _ P3].
    rewrite predict_noGuess in P1 by (rewrite started_guess; exact G). apply load_predictor in P1. destruct P1 as [P1 _].
    change (s_len (started LoadControl s)) with (s_len s) in P1. injection P2. injection P3. intros. congruence.
  - pose proof (C23_failed_step_keeps_solution p o LoadControl s s') as K. split; intros Hs.
    + destruct E2 as [(t & _ & Ht & E2)|[_ E2]]; rewrite H in E2; [|discriminate]. injection E2 as ->. contradiction.
    + apply K. auto.
Qed.
Print Assumptions C32_load_control_partial.
(** several steps, all successful, with a fixed length *)
Fixpoint allSucceed {S : VS} {Mat} (p : problem S Mat) o k (n : nat) (s s' : st S Mat) : Prop :=
  match n with
  | O => s' = s
  | Datatypes.S n => exists s1, step p o k s = Ret tt s1 /\ s_stat s1 = Success /\ allSucceed p o k n s1 s'
  end.
Theorem C32_load_control_run_partial {S : VS} {Mat} (p : problem S Mat) o n s s' :
  (2 <= o_maxIt o)%nat -> s_guess s = None -> s_adaptive s = false -> allSucceed p o LoadControl n s s' ->
  s_L s' = s_L s + INR n * s_len s.
Proof.
  intros Hm. revert s. induction n as [|n IH]; intros s G Ha H.
  - cbn in H. subst. cbn. ring.
  - destruct H as (s1 & E & Es & H). destruct (C32_load_control_partial p o s s1 Hm G E) as [L1 _].
    destruct (C26_length_factor p o LoadControl s s1 E) as (A1 & A2 & _).
    assert (G1 : s_guess s1 = None).
    { destruct (step_outcome p o LoadControl s s1 E) as [(A & _)|[(_ & A & _)|(_ & _ & sP & sI & sJ & s2 & s7 & C & ->)]]; [contradiction|lia|].
      change (s_guess s7 = None). rewrite (step_guess_converged _ _ _ _ _ _ _ _ _ C). destruct C as [C _ _ _ _ _ _ _ _].
      rewrite predict_noGuess in C by (rewrite started_guess; exact G). apply load_predictor in C. destruct C as [_ C].
      rewrite C, started_guess. exact G. }
    rewrite (IH s1 G1 ltac:(congruence) H), L1, (A2 Ha) by assumption. rewrite S_INR. ring.
Qed.
Print Assumptions C32_load_control_run_partial.
Example C32_example : exists s, allSucceed exSpring (exOpts 5) LoadControl 2 (exSt VS_R R 3) s /\ s_L s = 6 /\ s_U s = 3.
Proof.
  eexists. split.
  - eexists. split; [ev|]. split; [reflexivity|]. eexists. split; [ev|]. split; reflexivity.
  - rcbv. split; lra.
Qed.
(** MaxIter = 1: Success, but the load factor does not move *)
Theorem C32_refuted : exists (s s' : st VS_R R), s_guess s = None /\ step exSpring (exOpts 1) LoadControl s = Ret tt s' /\
  s_stat s' = Success /\ s_len s = 3 /\ s_L s' = s_L s.
Proof. exists (exSt VS_R R 3). eexists. split; [reflexivity|]. split; [ev|]. rcbv. repeat split; lra. Qed.
Print Assumptions C32_refuted.

(** ** C33: the initial guess *)
Lemma guess_pred {S : VS} {Mat} (p : problem S Mat) o k u l (s s' : st S Mat) : predictorGuess p o k u l s = Ret tt s' ->
  match k with Riks | Crisfield => s_guess s' = None | _ => s_guess s' = s_guess s end.
Proof.
  unfold predictorGuess. intros H. destruct (stepJacobian p s) as [[] s1|] eqn:E1; [|discriminate]. cbn [obind] in H.
  pose proof (keepOk (S:=S) (Mat:=Mat) keep4 _ s _ _ (stepJacobian_keep p s) E1) as K1. apply keep43 in K1.
  assert (G1 : s_guess s1 = s_guess s) by (injection K1; auto).
  assert (GF : forall x x', firstPredictor p x = Ret tt x' -> s_guess x' = s_guess x).
  { intros x x'. unfold firstPredictor, solveSystem. destruct (s_fact x); [|discriminate]. cbv zeta. destruct (p_solve p _ _); [|discriminate].
    cbn [obind]. destruct (Rleb _ _); [discriminate|]. intros Hx. injection Hx as <-. reflexivity. }
  assert (GS : forall u1 l1 u0 l0 (x x' : st S Mat), secantPredictor u1 l1 u0 l0 x = Ret tt x' -> s_guess x' = s_guess x).
  { intros u1 l1 u0 l0 x x'. unfold secantPredictor. destruct (Reqb _ _); [discriminate|]. intros Hx. injection Hx as <-. reflexivity. }
  assert (GP : forall x x', defaultPhi p o x = Ret tt x' -> s_guess x' = s_guess x).
  { intros x x'. unfold defaultPhi. destruct (o_phiUser o); [intros Hx; injection Hx as <-; auto|].
    destruct (rdiv _ _); [|discriminate]. intros Hx. injection Hx as <-. reflexivity. }
  destruct k; cbv zeta in H.
  - destruct (computeUt p _) as [[] s2|] eqn:E2; [|discriminate]. cbn [obind] in H. injection H as <-.
    pose proof (keepOk (S:=S) (Mat:=Mat) keep4 _ _ _ _ (computeUt_keep p _) E2) as K2. apply keep43 in K2.
    injection K2. intros. cbn in *. congruence.
  - destruct (computeUt p _) as [[] s2|] eqn:E2; [|discriminate]. cbn [obind] in H.
    match type of H with obind ?x _ = _ => destruct x as [[] s3|]; [|discriminate] end. cbn [obind] in H. injection H as <-. reflexivity.
  - destruct (computeUt p _) as [[] s2|] eqn:E2; [|discriminate]. cbn [obind] in H.
    destruct (defaultPhi p o s2) as [[] s3|]; [|discriminate]. cbn [obind] in H. injection H as <-. reflexivity.
  - match type of H with obind ?x _ = _ => destruct x as [[] s3|] eqn:E3; [|discriminate] end. cbn [obind] in H.
    assert (s_guess s3 = s_guess s1) by (destruct (close _ _ _ _); [eapply GF|eapply GS]; exact E3).
    destruct (defaultPhi p o s3) as [[] s4|] eqn:E4; [|discriminate]. apply GP in E4. cbn [obind] in H. injection H as <-. 
    cbn. congruence.
Qed.
(** Riks and Crisfield: a guess that differs from the solution in both U and L is used by
    the next step and gone after it *)
Theorem C33_guess_once_partial {S : VS} {Mat} (p : problem S Mat) o k s s' u l :
  k = Riks \/ k = Crisfield -> (2 <= o_maxIt o)%nat ->
  step p o k (setInitialGuess u l s) = Ret tt s' -> s_stat s' = Success ->
  u <> s_U s -> l <> s_L s -> s_guess s' = None.
Proof.
  intros Hk Hm H Es Hu Hl.
  destruct (step_outcome _ _ _ _ _ H) as [(A & _)|[(_ & A & _)|(_ & _ & sP & sI & sJ & s2 & s7 & C & ->)]]; [contradiction|lia|].
  change (s_guess s7 = None). rewrite (step_guess_converged _ _ _ _ _ _ _ _ _ C). destruct C as [C _ _ _ _ _ _ _ _].
  unfold predict in C. rewrite started_guess in C. cbn [s_guess setInitialGuess set_guess] in C.
  pose proof (started_keep1 k (setInitialGuess u l s)) as K. injection K. intros.
  destruct (Reqb (norm _) 0) eqn:E1.
  { apply Reqb_true in E1. apply norm_zero in E1. apply vsub_zero_eq in E1. exfalso. apply Hu. rewrite E1. assumption. }
  destruct (Reqb (l - _) 0) eqn:E2.
  { apply Reqb_true in E2. exfalso. apply Hl. cbn in *. lra. }
  cbn [negb andb] in C. apply guess_pred in C. destruct Hk as [-> | ->]; exact C.
Qed.
Print Assumptions C33_guess_once_partial.
Example C33_example : exists s, step exSpring (exOpts 5) Riks (setInitialGuess (3 : VS_R) 6 (exSt VS_R R 3)) = Ret tt s /\
  s_stat s = Success /\ s_guess s = None /\ (3 : VS_R) <> s_U (exSt VS_R R 3) /\ s_L s > 0.
Proof. eexists. split; [ev|]. rcbv. repeat split; lra. Qed.
(** LoadControl: the guess is never removed. Here it takes the third step back to the
    load of the guess: the loads are 5, 6, 5. *)
Theorem C33_refuted : exists (s s1 s2 s3 : st VS_R R), s_guess s = None /\
  step exSpring (exOpts 5) LoadControl (setInitialGuess (1 : VS_R) 5 s) = Ret tt s1 /\
  step exSpring (exOpts 5) LoadControl s1 = Ret tt s2 /\
  step exSpring (exOpts 5) LoadControl s2 = Ret tt s3 /\
  s_stat s1 = Success /\ s_stat s2 = Success /\ s_stat s3 = Success /\ s_len s = 1 /\
  s_L s1 = 5 /\ s_L s2 = 6 /\ s_L s3 = 5.
Proof.
  exists (exSt VS_R R 1). do 3 eexists. split; [reflexivity|]. split; [ev|]. split; [ev|]. split; [ev|].
  rcbv. repeat split; lra.
Qed.
Print Assumptions C33_refuted.
