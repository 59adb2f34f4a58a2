(** Properties of the stability report and of the output: C34, C35. *)
From Verif Require Import VS Status RunTac ALMBase ALMBaseProofs ALMStep ALMLog ALMPoints ALMRun ALMVerbose Props_ALMStep.
Local Open Scope R_scope.

Section Stab.
Context {S : VS} {Mat : Type}.
Notation st := (st S Mat).
Variable p : problem S Mat.
Variable o : opts.
Implicit Types s : st.
Ltac cases := repeat (match goal with |- context [match ?x with _ => _ end] => destruct x end; cbn [obind outSt]).
Tactic Notation "kb" ident(s1) ident(K) := apply bind_proj; [|intros ? s1 _ K].

(** what the evaluations other than computeStability leave alone *)
Definition keepS s := (s_stab s, s_indicator s).
Lemma refresh_S u du s : keepS (outSt (refreshJacobian p u du s)) = keepS s.
Proof. unfold refreshJacobian, computeJacobianAt, factorizeMatrix. cases; reflexivity. Qed.
Lemma Ut_S s : keepS (outSt (computeUt p s)) = keepS s.
Proof. unfold computeUt, solveSystem. cases; reflexivity. Qed.
Lemma Ubar_S s : keepS (outSt (computeUbar p s)) = keepS s.
Proof. unfold computeUbar, solveSystem. cases; reflexivity. Qed.
Lemma phi_S s : keepS (outSt (defaultPhi p o s)) = keepS s.
Proof. unfold defaultPhi. cases; reflexivity. Qed.
Lemma first_S s : keepS (outSt (firstPredictor p s)) = keepS s.
Proof. unfold firstPredictor, solveSystem. cases; reflexivity. Qed.
Lemma secant_S u1 l1 u0 l0 s : keepS (outSt (secantPredictor u1 l1 u0 l0 s)) = keepS s.
Proof. unfold secantPredictor. cases; reflexivity. Qed.
Lemma scale_S b s : keepS (scaleStep b s) = keepS s.
Proof. destruct b; reflexivity. Qed.
Ltac kstep := first [reflexivity | assumption | apply refresh_S | apply Ut_S | apply phi_S | apply first_S | apply secant_S].
Lemma predictor_S k s : keepS (outSt (predictor p o k s)) = keepS s.
Proof.
  unfold predictor. kb s1 K1; [kstep|]. rewrite <- K1. destruct k.
  - change (keepS s1) with (keepS (set_DL (s_len s1) (set_dL (s_len s1) s1))). kb s2 K2; [kstep|]. assumption.
  - destruct (Nat.eqb (p_numDof p) 0); [reflexivity|].
    cbv zeta. set (s1' := set_phi _ s1). change (keepS s1) with (keepS s1'). kb s2 K2; [destruct (close _ _ _ _); kstep|].
    cbn [outSt]. rewrite scale_S. assumption.
  - kb s2 K2; [kstep|]. rewrite <- K2. kb s3 K3.
    + destruct (_ && _); [destruct (rdiv _ _); [cbv zeta; rewrite phi_S; reflexivity|reflexivity]|].
      kb s3 K3; [destruct (o_phiUser o); [reflexivity|]; destruct (rdiv _ _); reflexivity|]. exact K3.
    + destruct (o_angle o); exact K3.
  - kb s2 K2; [destruct (close _ _ _ _); kstep|]. rewrite <- K2. kb s3 K3; [kstep|].
    cbn [outSt]. rewrite scale_S. assumption.
Qed.
Lemma predictorGuess_S k u l s : keepS (outSt (predictorGuess p o k u l s)) = keepS s.
Proof.
  unfold predictorGuess. kb s1 K1; [kstep|]. rewrite <- K1. destruct k.
  - change (keepS s1) with (keepS (set_DL (l - s_L s1) (set_dL (l - s_L s1) s1))). kb s2 K2; [kstep|]. assumption.
  - kb s2 K2; [kstep|]. rewrite <- K2. kb s3 K3; [destruct (close _ _ _ _); kstep|].
    cbn [outSt]. change (keepS (scaleStep true s3) = keepS s2). rewrite scale_S. assumption.
  - kb s2 K2; [kstep|]. rewrite <- K2. kb s3 K3; [kstep|]. exact K3.
  - kb s2 K2; [destruct (close _ _ _ _); kstep|]. rewrite <- K2. kb s3 K3; [kstep|].
    cbn [outSt]. rewrite scale_S. assumption.
Qed.
Lemma predict_S k s : keepS (outSt (predict p o k s)) = keepS s.
Proof.
  unfold predict. destruct (s_guess s) as [[u l]|]; [|apply predictor_S].
  destruct (_ && _); [apply predictorGuess_S|apply predictor_S].
Qed.
Lemma residual_S s : (keepS (outSt (computeResidual p s)), s_jac (outSt (computeResidual p s))) = (keepS s, s_jac s).
Proof. unfold computeResidual, computeResidualAt. cases; reflexivity. Qed.
Lemma norms_S s : (keepS (computeResidualNorms p s), s_jac (computeResidualNorms p s)) = (keepS s, s_jac s).
Proof. unfold computeResidualNorms. cases; reflexivity. Qed.
Lemma quasi_S k s : keepS (outSt (quasiNewtonPredictor p k s)) = keepS s.
Proof.
  unfold quasiNewtonPredictor, quasiNewtonIteration. kb s1 K1.
  - kb s2 K2; [apply refresh_S|]. destruct k; try assumption; rewrite Ut_S; assumption.
  - rewrite Ubar_S. assumption.
Qed.
Lemma finished_S k s s' : finished o k s s' -> (keepS s', s_jac s', s_stabPrev s') = (keepS s, s_jac s, s_stabPrev s).
Proof.
  unfold finished, computeLength. cbv zeta.
  assert (E : (keepS (iterationFinish o k s), s_jac (iterationFinish o k s), s_stabPrev (iterationFinish o k s)) = (keepS s, s_jac s, s_stabPrev s)).
  { unfold iterationFinish. destruct k; try reflexivity. destruct (o_angle o); reflexivity. }
  rewrite <- E. generalize (iterationFinish o k s). clear E. intros t.
  destruct (s_adaptive t); [destruct (Nat.eqb _ _); [discriminate|]|]; intros H;
    apply (f_equal outSt) in H; cbn [outSt] in H; rewrite <- H; reflexivity.
Qed.
Lemma minCoeff_neg l x : minCoeff l = Some x -> (x < 0 <-> Exists (fun d => d < 0) l).
Proof.
  revert x. induction l as [|a l IH]; cbn; intros x H; [discriminate|].
  destruct (minCoeff l) as [y|] eqn:E; injection H as <-.
  - specialize (IH y eq_refl). rewrite Exists_cons, <- IH. unfold Rmin. destruct (Rle_dec a y); lra.
  - destruct l; [|cbn in E; destruct (minCoeff l); discriminate]. rewrite Exists_cons, Exists_nil. tauto.
Qed.

(** the tangent of [s] has a negative entry in the diagonal of its factorisation *)
Definition tangentNegative s : Prop := exists m, s_jac s = Some m /\ Exists (fun d => d < 0) (p_diag p m).
(** indicator and m_stability belong to the tangent *)
Definition reported s : Prop :=
  (s_jac s <> None) /\ (s_stab s = 1%Z \/ s_stab s = (-1)%Z) /\ (s_stab s = 1%Z <-> tangentNegative s) /\ stability s = s_stab s.
Lemma reported_ext s s' : (keepS s', s_jac s') = (keepS s, s_jac s) -> reported s -> reported s'.
Proof.
  intros E. injection E. intros E1 E2 E3. unfold reported, tangentNegative, stability. rewrite E1, E2, E3. auto.
Qed.
Hypothesis BIF : o_bif o = BifDeterminant.
Hypothesis LDLT : o_ldlt o = true.
Hypothesis NE : forall m, p_diag p m <> [].
Lemma stability_reported s s' : jacOK p s -> computeStability p o false s = Ret tt s' -> reported s' /\ s_stabPrev s' = s_stabPrev s.
Proof.
  intros (m & J1 & J2 & J3). unfold computeStability, computeStability_. cbn [obind]. unfold stabilityVec, factorizeMatrix.
  rewrite BIF, LDLT, J1, J3. cbn [obind]. destruct (minCoeff (p_diag p m)) as [x|] eqn:Em; [|destruct (NE m (minCoeff_none _ Em))].
  intros H. apply (f_equal outSt) in H. cbn [outSt] in H. rewrite <- H. split; [|reflexivity].
  unfold reported, tangentNegative, stability. cbn. rewrite J1. split; [discriminate|].
  pose proof (minCoeff_neg _ _ Em) as N. destruct (Rltb x 0) eqn:Ex.
  - apply Rltb_true in Ex. repeat split; auto. intros _. exists m. tauto.
  - apply Rltb_false in Ex. repeat split; auto; try discriminate. intros (m' & E' & X). injection E' as <-. apply N in X. lra.
Qed.
Hypothesis NV : o_verbose o = false.
Lemma loop_reported k : forall n i s s', (1 <= i)%nat -> jacOK p s -> stepLoop p o k (Datatypes.S n) i s = Ret tt s' ->
  reported s' /\ s_stabPrev s' = s_stabPrev s.
Proof.
  induction n as [|n IH]; intros i s s' Hi J; rewrite stepLoop_S; cbv zeta; rewrite NV;
  assert (J0 : jacOK p (set_numIt i s)) by (apply (jacOK_ext p s); auto);
  change (s_stabPrev s) with (s_stabPrev (set_numIt i s)); revert J0; generalize (set_numIt i s); clear s J; intros s J;
  (match goal with |- context [obind (if newJacobian o i then ?a else ?b)] => destruct (if newJacobian o i then a else b) as [[] sa|e sa] eqn:Ea; cbn [obind]; [|discriminate] end);
  (assert (Ja : jacOK p sa /\ s_stabPrev sa = s_stabPrev s) by
    (destruct (newJacobian o i); [split; [apply (logs_jacOK p o 0 s _ (log_quasi p o k s) tt sa Ea)|];
       pose proof (keepOk keep4 _ s _ _ (quasiNewtonIteration_keep p k s) Ea) as K; injection K; auto|apply (f_equal outSt) in Ea; cbn in Ea; rewrite <- Ea; auto]));
  destruct Ja as [Ja Pa]; rewrite <- Pa; clear Ea Pa J s;
  destruct (iteration p o k sa) as [[] sb|e sb] eqn:Eb; cbn [obind]; try discriminate;
  pose proof (logs_jacOK p o 0 sa _ (log_iteration p o k sa Ja) tt sb Eb) as Jb;
  pose proof (keepOk keep3 _ sa _ _ (iteration_keep p o k sa) Eb) as Kb; injection Kb; intros; clear Kb Eb;
  destruct (computeStability p o false sb) as [[] sc|e sc] eqn:Ec; cbn [obind] in *; try discriminate;
  pose proof (logs_jacOK p o 0 sb _ (log_stability p o sb Jb) tt sc Ec) as Jc;
  destruct (stability_reported sb sc Jb Ec) as [Rc Pc];
  destruct (computeResidual p sc) as [[] sd|e sd] eqn:Ed; cbn [obind] in *; try discriminate;
  pose proof (logs_jacOK p o 1 sc _ (log_residual p o sc Jc) tt sd Ed) as Jd;
  pose proof (residual_S sc) as Sd; rewrite Ed in Sd; cbn [outSt] in Sd;
  pose proof (keepOk keep4 _ sc _ _ (computeResidual_keep p sc) Ed) as Kd; injection Kd; intros;
  pose proof (norms_S sd) as Se; pose proof (reported_ext _ _ Sd Rc) as Rd; pose proof (reported_ext _ _ Se Rd) as Re;
  destruct (norms_log p sd) as (_ & A2 & A3 & _); pose proof (jacOK_ext p sd _ A2 A3 Jd) as Je;
  assert (Pe : s_stabPrev (computeResidualNorms p sd) = s_stabPrev sa) by
    (unfold computeResidualNorms; destruct (Nat.eqb _ _); cbn; congruence);
  destruct (convergedTest o (computeResidualNorms p sd)) eqn:Et.
  - match goal with H : _ = Ret tt s' |- _ => apply finished_S in H; injection H; intros end. split; [|congruence].
    apply (reported_ext (computeResidualNorms p sd)); [unfold keepS; congruence|exact Re].
  - discriminate.
  - match goal with H : _ = Ret tt s' |- _ => apply finished_S in H; injection H; intros end. split; [|congruence].
    apply (reported_ext (computeResidualNorms p sd)); [unfold keepS; congruence|exact Re].
  - match goal with H : _ = Ret tt s' |- _ => destruct (IH (Datatypes.S i) _ _ ltac:(lia) Je H) as [IH1 IH2] end. split; [exact IH1|congruence].
Qed.
End Stab.

(** ** C34: the stability report *)
(** With the determinant method, without output, after a successful step: indicator, sign and
    stabilityChange() describe the last tangent assembled ([s_jac s'], at the last iterate
    before the final update) and the sign known before the step. The sign is the opposite of
    the documented one, see [C34_refuted]. *)
Theorem C34_change_partial {S : VS} {Mat} (p : problem S Mat) o k s s' :
  o_bif o = BifDeterminant -> o_ldlt o = true -> (forall m, p_diag p m <> []) -> o_verbose o = false -> (2 <= o_maxIt o)%nat ->
  s_stab s = 1%Z \/ s_stab s = (-1)%Z ->
  step p o k s = Ret tt s' -> s_stat s' = Success ->
  exists m, s_jac s' = Some m /\
    (stability s' = 1%Z <-> Exists (fun d => d < 0) (p_diag p m)) /\
    (stability s' = (-1)%Z <-> Forall (fun d => 0 <= d) (p_diag p m)) /\
    (stabilityChange s' = true <-> stability s' <> s_stab s).
Proof.
  intros B L NE NV Hm Hs H HS. destruct (step_cases p o k s) as [(s1 & E1 & E2)|(e & s1 & E1 & [(t & _ & Ht & E2)|[_ E2]])].
  2:{ rewrite H in E2. apply (f_equal outSt) in E2. cbn in E2. rewrite E2 in HS. cbn in HS. congruence. }
  2:{ rewrite H in E2. discriminate. }
  rewrite H in E2. apply (f_equal outSt) in E2. cbn [outSt] in E2. subst s'. clear H HS.
  assert (R : reported p s1 /\ s_stabPrev s1 = s_stab s).
  { unfold step_ in E1. destruct (negb (s_initialized s)); [discriminate|].
    assert (K0 : keepS (initiateStep k (set_numIt 0 (set_conv false s))) = keepS s) by (destruct k; reflexivity).
    revert K0 E1. generalize (initiateStep k (set_numIt 0 (set_conv false s))). intros s0 K0 E1.
    destruct (predict p o k s0) as [[] sP|] eqn:EP; cbn [obind] in E1; [|discriminate].
    pose proof (logs_jacOK p o 0 s0 _ (log_predict p o k s0) tt sP EP) as JP.
    pose proof (keepOk keepS _ s0 _ _ (predict_S p o k s0) EP) as KP.
    destruct (computeResidual p sP) as [[] sR|] eqn:ER; cbn [obind] in E1; [|discriminate].
    pose proof (logs_jacOK p o 1 sP _ (log_residual p o sP JP) tt sR ER) as JR.
    pose proof (residual_S p sP) as KR. rewrite ER in KR. cbn [outSt] in KR. apply (f_equal fst) in KR. cbn [fst] in KR.
    rewrite NV in E1. cbn [obind] in E1. pose proof (norms_S p sR) as KN. apply (f_equal fst) in KN. cbn [fst] in KN.
    destruct (norms_log p sR) as (_ & A2 & A3 & _). pose proof (jacOK_ext p sR _ A2 A3 JR) as JN.
    revert E1 JN KN. cbv zeta. generalize (computeResidualNorms p sR). intros sN E1 JN KN.
    match goal with H : obind ?x _ = _ |- _ => destruct x as [[] sQ|] eqn:EQ; cbn [obind] in H; [|discriminate] end.
    assert (JQ : jacOK p sQ /\ keepS sQ = keepS sN).
    { destruct (o_quasi o); [split; [apply (logs_jacOK p o 0 sN _ (log_quasiPredictor p o k sN) tt sQ EQ)|
        apply (keepOk keepS _ sN _ _ (quasi_S p k sN) EQ)]|apply (f_equal outSt) in EQ; cbn in EQ; rewrite <- EQ; auto]. }
    destruct JQ as [JQ KQ]. destruct (o_maxIt o - 1)%nat as [|n] eqn:En; [lia|].
    destruct (loop_reported p o B L NE NV k n 1 _ s1 (le_n _) (jacOK_ext p sQ (set_stabPrev (s_stab sQ) sQ) eq_refl eq_refl JQ) E1) as [R1 R2].
    split; [exact R1|]. rewrite R2. cbn [s_stabPrev set_stabPrev]. 
    assert (KK : keepS sQ = keepS s) by congruence. apply (f_equal fst) in KK. exact KK. }
  destruct R as [(R1 & R2 & R3 & R4) R5]. destruct (s_jac s1) as [m|] eqn:Em; [|contradiction]. exists m.
  change (stability (set_stat Success s1)) with (stability s1). change (stabilityChange (set_stat Success s1)) with (stabilityChange s1).
  split; [exact Em|]. rewrite R4.
  assert (R6 : s_stab s1 = 1%Z <-> Exists (fun d => d < 0) (p_diag p m)).
  { rewrite R3. unfold tangentNegative. rewrite Em. split; [intros (m' & E & X); injection E as <-; exact X|eauto]. }
  split; [exact R6|]. split.
  - split; intros X.
    + apply Forall_forall. intros d Hd. apply Rnot_lt_le. intros N. assert (s_stab s1 = 1%Z); [apply R6, Exists_exists; eauto|congruence].
    + destruct R2 as [R2|R2]; [|exact R2]. apply R6 in R2. apply Exists_exists in R2. destruct R2 as (d & D1 & D2).
      rewrite Forall_forall in X. specialize (X d D1). lra.
  - unfold stabilityChange. rewrite R5. destruct R2 as [-> | ->], Hs as [-> | ->]; cbn; split; intros; try reflexivity; congruence.
Qed.
Print Assumptions C34_change_partial.
(** a spring with a maximum: tangent 2 below the displacement 1, -2 above *)
Definition exSnap : problem VS_R R := @mkProblem VS_R R
  (fun u l => if Rltb u 1 then Some (2 * u - l) else Some (-2 * (u - 5) - l)) (fun u _ => if Rltb u 1 then Some 2 else Some (-2)) (fun _ => true)
  (fun m f => Some (f / m)) (fun m x => m * x) (fun m => [m]) (fun m => Some [m]) 1 1 1.
(** a step over the maximum: the change is reported *)
Example C34_example : exists s s', initialize exSnap (exOpts 5) LoadControl true (exSt VS_R R 1) = Ret tt s /\ s_stab s = (-1)%Z /\
  step exSnap (exOpts 5) LoadControl (setSolution (5 : VS_R) 0 s) = Ret tt s' /\ s_stat s' = Success /\ s_U s' = 9/2 /\ s_L s' = 1 /\
  stabilityChange s' = true.
Proof. eexists. eexists. split; [ev|]. split; [rcbv; reflexivity|]. split; [ev|]. rcbv. repeat split; lra. Qed.
(** After any stability computation with the determinant method that does not fail,
    isStable() is true. *)
Theorem C34_isStable_refuted {S : VS} {Mat} (p : problem S Mat) o s s' :
  computeStability p o true s = Ret tt s' -> s_stat s' = Success -> isStable s' = true.
Proof.
  unfold computeStability. destruct (computeStability_ p o (s_U s) true s) as [[] t|e t] eqn:E.
  - intros H _. apply (f_equal outSt) in H. cbn [outSt] in H. rewrite <- H. unfold computeStability_ in E.
    match goal with H : obind ?x _ = _ |- _ => destruct x as [[] s1|] eqn:E1; cbn [obind] in H; [|discriminate] end.
    destruct (stabilityVec p o s1) as [v s2|]; cbn [obind] in E; [|discriminate].
    destruct (minCoeff v) as [m|]; [|discriminate]. apply (f_equal outSt) in E. cbn [outSt] in E. rewrite <- E.
    unfold isStable. cbn. destruct (Rltb m 0); reflexivity.
  - destruct (statusOf e) as [x|] eqn:Ex; [|discriminate]. intros H HS. apply (f_equal outSt) in H. cbn [outSt] in H. rewrite <- H in HS.
    cbn in HS. subst x. destruct (statusOf_fail _ _ Ex eq_refl).
Qed.
Print Assumptions C34_isStable_refuted.
(** the stable spring is reported with -1, the unstable one with +1, and both as stable *)
Theorem C34_refuted : exists s s' : st VS_R R,
  initialize exSnap (exOpts 5) LoadControl true (exSt VS_R R 1) = Ret tt s /\ s_jac s = Some 2 /\ stability s = (-1)%Z /\ isStable s = true /\
  computeStability exSnap (exOpts 5) true (setSolution (5 : VS_R) 0 s) = Ret tt s' /\ s_stat s' = Success /\
  s_jac s' = Some (-2) /\ stability s' = 1%Z /\ isStable s' = true.
Proof. eexists. eexists. split; [ev|]. unfold stability, isStable. do 3 (split; [rsimp; reflexivity|]). split; [ev|]. rsimp. repeat split; reflexivity. Qed.
Print Assumptions C34_refuted.

(** ** C35: the output does not influence the results *)
(** calls of the interface *)
Inductive call (S : VS) :=
| CInitialize (stability : bool) | CStep | CStability (jacobian : bool) | CSetLength (l : R)
| CSetLengthAdaptive (l : R) (a : bool) (it : Z) | CReduceLength (f : R) | CResetLength
| CSetSolution (u : S) (l : R) | CSetSolutionStep (du : S) (dl : R) | CSetPrevious (u : S) (l : R)
| CSetInitialGuess (u : S) (l : R) | CResetStep.
Arguments CInitialize {S} _. Arguments CStep {S}. Arguments CStability {S} _. Arguments CSetLength {S} _.
Arguments CSetLengthAdaptive {S} _ _ _. Arguments CReduceLength {S} _. Arguments CResetLength {S}. Arguments CResetStep {S}.
Arguments CSetSolution {S} _ _. Arguments CSetSolutionStep {S} _ _. Arguments CSetPrevious {S} _ _. Arguments CSetInitialGuess {S} _ _.
Definition perform {S : VS} {Mat} (p : problem S Mat) o k (c : call S) s : out S Mat unit :=
  match c with
  | CInitialize b => initialize p o k b s
  | CStep => step p o k s
  | CStability j => computeStability p o j s
  | CSetLength l => Ret tt (setLength l s)
  | CSetLengthAdaptive l a it => Ret tt (setLengthAdaptive l a it s)
  | CReduceLength f => Ret tt (reduceLength f s)
  | CResetLength => resetLength s
  | CSetSolution u l => Ret tt (setSolution u l s)
  | CSetSolutionStep u l => Ret tt (setSolutionStep u l s)
  | CSetPrevious u l => Ret tt (setPrevious u l s)
  | CSetInitialGuess u l => Ret tt (setInitialGuess u l s)
  | CResetStep => Ret tt (resetStep s)
  end.
(** what the user sees after each call: status, solution, increment, arc length, number of
    iterations, convergence; an exception ends the sequence *)
Fixpoint observe {S : VS} {Mat} (p : problem S Mat) o k (cs : list (call S)) s : list (status * S * R * S * R * R * nat * bool) * option err :=
  match cs with
  | [] => ([], None)
  | c :: cs =>
    match perform p o k c s with
    | Exc e _ => ([], Some e)
    | Ret _ t => let '(l, e) := observe p o k cs t in ((s_stat t, s_U t, s_L t, s_DU t, s_DL t, s_len t, s_numIt t, s_conv t) :: l, e)
    end
  end.
Section Calls.
Context {S : VS} {Mat : Type}.
Notation st := (st S Mat).
Variable p : problem S Mat.
Variable o : opts.
Variable b : bool.
Hypothesis W : wellPosed p o.
Implicit Types s : st.
Ltac cdef := cbv [core mapO logEv set_U set_Uprev set_DU set_dU set_dUbar set_dUt set_DUold set_Vm set_DV set_dV set_dVbar set_dVt set_resVec set_L set_Lprev set_DL set_dL set_DLold set_guess set_jac set_fact set_len set_lenPrev set_lenOri set_adaptive set_desired set_numIt set_conv set_stat set_initialized set_resF set_resU set_basF set_basU set_resKT set_phi set_stabVec set_negatives set_indicator set_stab set_stabPrev set_log s_U s_Uprev s_DU s_dU s_dUbar s_dUt s_DUold s_Vm s_DV s_dV s_dVbar s_dVt s_resVec s_L s_Lprev s_DL s_dL s_DLold s_guess s_jac s_fact s_len s_lenPrev s_lenOri s_adaptive s_desired s_numIt s_conv s_stat s_initialized s_resF s_resU s_basF s_basU s_resKT s_phi s_stabVec s_negatives s_indicator s_stab s_stabPrev s_log].
Lemma resp_factor m : resp (factorizeMatrix p m).
Proof. apply resp_core. intros s. destruct s. unfold factorizeMatrix. cdef. destruct (p_factor p m); reflexivity. Qed.
Lemma resp_det : resp (fun s : st => match s_jac s with None => Exc EUndef s
  | Some m => obind (factorizeMatrix p m s) (fun _ s => Ret (p_diag p m) s) end).
Proof.
  apply (resp_opt s_jac (fun m s => obind (factorizeMatrix p m s) (fun _ s => Ret (p_diag p m) s)) (fun s => Exc EUndef s)).
  - intros s. destruct s. cdef. reflexivity.
  - intros m. apply resp_bind; [apply resp_factor|]. intros []. apply (resp_ret (fun _ => p_diag p m) (fun s => s)); intros s; destruct s; cdef; reflexivity.
  - apply resp_exc.
Qed.
Lemma resp_eigen m : resp (fun s : st => let s := logEv (EvEigen m (isSome (p_eig p m))) s in
  match p_eig p m with Some l => Ret l s | None => Exc (EThrow 3) s end).
Proof. apply resp_core. intros s. destruct s. cdef. destruct (p_eig p m); reflexivity. Qed.
Lemma resp_eig : resp (fun s : st => match s_jac s with None => Exc EUndef s
  | Some m => let s := logEv (EvEigen m (isSome (p_eig p m))) s in
      match p_eig p m with Some l => Ret l s | None => Exc (EThrow 3) s end end).
Proof.
  apply (resp_opt s_jac (fun m s => let s := logEv (EvEigen m (isSome (p_eig p m))) s in
      match p_eig p m with Some l => Ret l s | None => Exc (EThrow 3) s end) (fun s => Exc EUndef s)).
  - intros s. destruct s. cdef. reflexivity.
  - intros m. apply resp_eigen.
  - apply resp_exc.
Qed.
Lemma resp_vec : resp (stabilityVec p o).
Proof.
  destruct W as (_ & _ & _ & W4). unfold stabilityVec. destruct (o_bif o); [| | |contradiction].
  - apply resp_core. intros s. destruct s. cdef. reflexivity.
  - destruct (o_ldlt o); [apply resp_det|apply resp_exc].
  - apply resp_eig.
Qed.
Lemma resp_stab_ x j : resp (computeStability_ p o x j).
Proof.
  unfold computeStability_. apply resp_bind.
  - destruct j; [apply resp_refresh|]. apply resp_core. intros s. destruct s. cdef. reflexivity.
  - intros []. apply resp_bind; [apply resp_vec|]. intros v. apply resp_core. intros s. destruct s. cdef. destruct (minCoeff v); reflexivity.
Qed.
(** same outcome, up to the members of the stability computation *)
Definition same (x x' : out S Mat unit) : Prop :=
  match x, x' with
  | Ret _ t, Ret _ t' => core t = core t' /\ s_stat t = s_stat t'
  | Exc e _, Exc e' _ => e = e'
  | _, _ => False
  end.
Lemma caught (x x' : out S Mat unit) : mapO x = mapO x' ->
  same (match x with Ret _ s => Ret tt (set_stat Success s) | Exc e s => match statusOf e with Some t => Ret tt (set_stat t s) | None => Exc e s end end)
       (match x' with Ret _ s => Ret tt (set_stat Success s) | Exc e s => match statusOf e with Some t => Ret tt (set_stat t s) | None => Exc e s end end).
Proof.
  intros H. pose proof (f_equal fst H) as H1. pose proof (f_equal snd H) as H2. clear H.
  assert (G : forall (t : st) x, core (set_stat x t) = core t) by (intros t y; destruct t; cdef; reflexivity).
  destruct x as [a s|e s], x' as [a' s'|e' s']; cbn [mapO fst snd] in *; try discriminate.
  - split; [rewrite !G; exact H2|reflexivity].
  - injection H1 as <-. destruct (statusOf e) as [t|]; [split; [rewrite !G; exact H2|reflexivity]|reflexivity].
Qed.
Lemma setter (g : st -> st) s s' : (forall s, core (g (core s)) = core (g s)) -> (forall s, s_stat (g s) = s_stat s) ->
  core s = core s' -> s_stat s = s_stat s' -> same (Ret tt (g s)) (Ret tt (g s')).
Proof. intros G1 G2 E1 E2. split; [rewrite <- (G1 s), <- (G1 s'), E1; reflexivity|rewrite !G2; exact E2]. Qed.
Lemma perform_same k c s s' : core s = core s' -> s_stat s = s_stat s' -> same (perform p (withVerbose o b) k c s) (perform p o k c s').
Proof.
  intros E Es. destruct c; cbn [perform].
  - unfold initialize. cbv zeta. change (computeStability_ p (withVerbose o b)) with (computeStability_ p o).
    assert (E0 : core (initMethods k (set_initialized true s)) = core (initMethods k (set_initialized true s')) /\
      s_stat (initMethods k (set_initialized true s)) = s_stat (initMethods k (set_initialized true s'))).
    { split; [|destruct k; exact Es].
      assert (G : forall t : st, core (initMethods k (set_initialized true (core t))) = core (initMethods k (set_initialized true t))) by (intros t; destruct k, t; cbv [initMethods]; cdef; reflexivity).
      rewrite <- (G s), <- (G s'), E. reflexivity. }
    revert E0. generalize (initMethods k (set_initialized true s)) (initMethods k (set_initialized true s')). clear s s' E Es. intros s s' [E Es].
    destruct stability; [|split; auto].
    replace (s_U s') with (s_U s) by (change (s_U (core s) = s_U (core s')); congruence).
    pose proof (resp_stab_ (s_U s) true s s' E) as H. pose proof (f_equal fst H) as H1. pose proof (f_equal snd H) as H2. clear H.
    assert (ST : forall x j (t : st), match computeStability_ p o x j t with Ret _ t' => s_stat t' = s_stat t | _ => True end).
    { intros x j t. assert (Q : s_stat (outSt (computeStability_ p o x j t)) = s_stat t).
      2:{ destruct (computeStability_ p o x j t); [exact Q|exact I]. }
      unfold computeStability_, stabilityVec, refreshJacobian, computeJacobianAt, factorizeMatrix.
      repeat (match goal with |- context [match ?x with _ => _ end] => destruct x end; cbn [obind outSt]); reflexivity. }
    pose proof (ST (s_U s) true s) as S1. pose proof (ST (s_U s) true s') as S2.
    destruct (computeStability_ p o (s_U s) true s) as [a t|e t], (computeStability_ p o (s_U s) true s') as [a' t'|e' t']; cbn [mapO fst snd obind] in *; try discriminate.
    + split.
      * assert (G : forall (t : st) z, core (set_stab z t) = core t) by (intros u z; destruct u; cdef; reflexivity). rewrite !G. exact H2.
      * cbn. congruence.
    + injection H1 as <-. reflexivity.
  - unfold step. apply caught. apply verbose_step_; auto.
  - unfold computeStability. change (computeStability_ p (withVerbose o b)) with (computeStability_ p o).
    replace (s_U s') with (s_U s) by (change (s_U (core s) = s_U (core s')); congruence).
    apply caught. apply resp_stab_. exact E.
  - apply (setter (setLength l)); auto; intros t; destruct t; cbv [setLength setLengthAdaptive reduceLength setSolution setSolutionStep setPrevious setInitialGuess resetStep]; cdef; reflexivity.
  - apply (setter (setLengthAdaptive l a it)); auto; intros t; destruct t; cbv [setLength setLengthAdaptive reduceLength setSolution setSolutionStep setPrevious setInitialGuess resetStep]; cdef; reflexivity.
  - apply (setter (reduceLength f)); auto; intros t; destruct t; cbv [setLength setLengthAdaptive reduceLength setSolution setSolutionStep setPrevious setInitialGuess resetStep]; cdef; reflexivity.
  - unfold resetLength. cbv zeta. change (s_adaptive (set_lenPrev (s_lenOri s) (set_len (s_lenOri s) s))) with (s_adaptive (core s)).
    change (s_adaptive (set_lenPrev (s_lenOri s') (set_len (s_lenOri s') s'))) with (s_adaptive (core s')). rewrite E.
    destruct (s_adaptive (core s')).
    + assert (E1 : core (set_lenPrev (s_lenOri s) (set_len (s_lenOri s) s)) = core (set_lenPrev (s_lenOri s') (set_len (s_lenOri s') s')) /\
        s_stat (set_lenPrev (s_lenOri s) (set_len (s_lenOri s) s)) = s_stat (set_lenPrev (s_lenOri s') (set_len (s_lenOri s') s'))).
      { apply (setter (fun s => set_lenPrev (s_lenOri s) (set_len (s_lenOri s) s))); auto; intros t; destruct t; cdef; reflexivity. }
      revert E1. generalize (set_lenPrev (s_lenOri s) (set_len (s_lenOri s) s)) (set_lenPrev (s_lenOri s') (set_len (s_lenOri s') s')).
      clear s s' E Es. intros s s' [E Es]. pose proof (resp_length s s' E) as H. pose proof (f_equal fst H) as H1. pose proof (f_equal snd H) as H2.
      assert (Q : forall t : st, s_stat (outSt (computeLength t)) = s_stat t).
      { intros t. unfold computeLength. destruct (Nat.eqb _ _); reflexivity. }
      pose proof (Q s) as Q1. pose proof (Q s') as Q2.
      destruct (computeLength s), (computeLength s'); cbn [mapO fst snd outSt] in *; try discriminate; [split; congruence|injection H1; auto].
    + apply (setter (fun s => set_lenPrev (s_lenOri s) (set_len (s_lenOri s) s))); auto; intros t; destruct t; cbv [setLength setLengthAdaptive reduceLength setSolution setSolutionStep setPrevious setInitialGuess resetStep]; cdef; reflexivity.
  - apply (setter (setSolution u l)); auto; intros t; destruct t; cbv [setLength setLengthAdaptive reduceLength setSolution setSolutionStep setPrevious setInitialGuess resetStep]; cdef; reflexivity.
  - apply (setter (setSolutionStep du dl)); auto; intros t; destruct t; cbv [setLength setLengthAdaptive reduceLength setSolution setSolutionStep setPrevious setInitialGuess resetStep]; cdef; reflexivity.
  - apply (setter (setPrevious u l)); auto; intros t; destruct t; cbv [setLength setLengthAdaptive reduceLength setSolution setSolutionStep setPrevious setInitialGuess resetStep]; cdef; reflexivity.
  - apply (setter (setInitialGuess u l)); auto; intros t; destruct t; cbv [setLength setLengthAdaptive reduceLength setSolution setSolutionStep setPrevious setInitialGuess resetStep]; cdef; reflexivity.
  - apply (setter (@resetStep S Mat)); auto; intros t; destruct t; cbv [setLength setLengthAdaptive reduceLength setSolution setSolutionStep setPrevious setInitialGuess resetStep]; cdef; reflexivity.
Qed.
End Calls.
(** Any sequence of calls (without the search for singular points) on any problem whose
    stability vectors are not empty gives the same solutions and statuses with either value
    of Verbose, and ends with the same exception, if any. *)
Theorem C35_same_results_partial {S : VS} {Mat} (p : problem S Mat) o k b cs s :
  wellPosed p o -> observe p (withVerbose o b) k cs s = observe p o k cs s.
Proof.
  intros W. enough (G : forall s s' : st S Mat, core s = core s' -> s_stat s = s_stat s' -> observe p (withVerbose o b) k cs s = observe p o k cs s') by (apply G; reflexivity).
  clear s. induction cs as [|c cs IH]; intros s s' E Es; cbn [observe]; [reflexivity|].
  pose proof (perform_same p o b W k c s s' E Es) as H. unfold same in H.
  destruct (perform p (withVerbose o b) k c s) as [a t|e t], (perform p o k c s') as [a' t'|e' t']; try contradiction; [|congruence].
  destruct H as [H1 H2]. rewrite (IH t t' H1 H2). destruct (observe p o k cs t') as [l e]. rewrite H2.
  replace (s_U t) with (s_U t') by (change (s_U (core t') = s_U (core t)); congruence).
  replace (s_L t) with (s_L t') by (change (s_L (core t') = s_L (core t)); congruence).
  replace (s_DU t) with (s_DU t') by (change (s_DU (core t') = s_DU (core t)); congruence).
  replace (s_DL t) with (s_DL t') by (change (s_DL (core t') = s_DL (core t)); congruence).
  replace (s_len t) with (s_len t') by (change (s_len (core t') = s_len (core t)); congruence).
  replace (s_numIt t) with (s_numIt t') by (change (s_numIt (core t') = s_numIt (core t)); congruence).
  replace (s_conv t) with (s_conv t') by (change (s_conv (core t') = s_conv (core t)); congruence). reflexivity.
Qed.
Print Assumptions C35_same_results_partial.
Example C35_example : wellPosed exSnap (exOpts 5) /\ exists s, step exSnap (withVerbose (exOpts 5) true) LoadControl (exSt VS_R R 1) = Ret tt s /\
  s_stat s = Success /\ s_U s = 1/2 /\ s_L s = 1.
Proof.
  split; [repeat split; cbn; try discriminate; try lia; intros m l H; injection H as <-; discriminate|].
  eexists. split; [ev|]. rcbv. repeat split; lra.
Qed.
(** The answer of stabilityChange() is not the same: the output computes the stability once
    more, before m_stabilityPrev is set. The step of [C34_example]. *)
Theorem C35_refuted : exists s s1 s2 : st VS_R R,
  initialize exSnap (exOpts 5) LoadControl true (exSt VS_R R 1) = Ret tt s /\
  step exSnap (exOpts 5) LoadControl (setSolution (5 : VS_R) 0 s) = Ret tt s1 /\ s_stat s1 = Success /\ stabilityChange s1 = true /\
  step exSnap (withVerbose (exOpts 5) true) LoadControl (setSolution (5 : VS_R) 0 s) = Ret tt s2 /\ s_stat s2 = Success /\ stabilityChange s2 = false.
Proof.
  eexists. eexists. eexists. split; [ev|]. split; [ev|]. split; [rcbv; reflexivity|]. split; [rcbv; reflexivity|].
  split; [ev|]. rcbv. split; reflexivity.
Qed.
Print Assumptions C35_refuted.
