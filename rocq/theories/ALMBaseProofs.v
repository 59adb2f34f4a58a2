(** Lemmas about the model of the arc-length solvers. *)
From Verif Require Import VS Status ALMBase.
Local Open Scope R_scope.

Section Proofs.
Context {S : VS} {Mat : Type}.
Notation st := (st S Mat).
Variable p : problem S Mat.
Variable o : opts.
Implicit Types s : st.

(** members that only iterationFinish, computeLength and the setters change *)
Definition keep1 s := (s_U s, s_L s, s_Uprev s, s_Lprev s, s_len s, s_lenPrev s, s_lenOri s, s_adaptive s,
  s_desired s, s_initialized s).
(** members that the predictors and the evaluations do not change *)
Definition keep2 s := (keep1 s, s_numIt s, s_conv s, s_basF s, s_basU s, s_stabPrev s, s_resKT s, s_Vm s, s_DV s).
(** members that iterations do not change either *)
Definition keep3 s := (keep2 s, s_guess s, s_phi s).
(** members that evaluations (Jacobian, residual, stability) do not change either *)
Definition keep4 s := (keep3 s, s_DU s, s_DL s, s_dU s, s_dL s, s_DUold s, s_DLold s).

Lemma bind_proj {A B X} (T : st -> X) s (x : out S Mat A) (f : A -> st -> out S Mat B) :
  T (outSt x) = T s -> (forall a s1, x = Ret a s1 -> T s1 = T s -> T (outSt (f a s1)) = T s) ->
  T (outSt (obind x f)) = T s.
Proof. destruct x; cbn; auto. Qed.

Ltac cases := repeat (match goal with |- context [match ?x with _ => _ end] => destruct x end; cbn [obind outSt]).

Lemma factorizeMatrix_keep m s : keep4 (outSt (factorizeMatrix p m s)) = keep4 s.
Proof. unfold factorizeMatrix. cases; reflexivity. Qed.
Lemma solveSystem_keep f s : keep4 (outSt (solveSystem p f s)) = keep4 s.
Proof. unfold solveSystem. cases; reflexivity. Qed.
Lemma computeJacobianAt_keep u du s : keep4 (outSt (computeJacobianAt p u du s)) = keep4 s.
Proof. unfold computeJacobianAt, factorizeMatrix. cases; reflexivity. Qed.
Lemma refreshJacobian_keep u du s : keep4 (outSt (refreshJacobian p u du s)) = keep4 s.
Proof. unfold refreshJacobian. apply bind_proj; [apply computeJacobianAt_keep|]. intros a s1 _ H. rewrite factorizeMatrix_keep. exact H. Qed.
Lemma stepJacobian_keep s : keep4 (outSt (stepJacobian p s)) = keep4 s.
Proof. apply refreshJacobian_keep. Qed.
Lemma computeUbar_keep s : keep4 (outSt (computeUbar p s)) = keep4 s.
Proof. unfold computeUbar. apply bind_proj; [apply solveSystem_keep|]. intros a s1 _ H. exact H. Qed.
Lemma computeUt_keep s : keep4 (outSt (computeUt p s)) = keep4 s.
Proof. unfold computeUt. apply bind_proj; [apply solveSystem_keep|]. intros a s1 _ H. exact H. Qed.
Lemma computeResidual_keep s : keep4 (outSt (computeResidual p s)) = keep4 s.
Proof. unfold computeResidual, computeResidualAt. cases; reflexivity. Qed.
Lemma stabilityVec_keep s : keep4 (outSt (stabilityVec p o s)) = keep4 s.
Proof. unfold stabilityVec, factorizeMatrix. cases; reflexivity. Qed.
Lemma computeStability__keep x j s : keep4 (outSt (computeStability_ p o x j s)) = keep4 s.
Proof.
  unfold computeStability_. apply bind_proj; [destruct j; [apply refreshJacobian_keep|reflexivity]|]. intros a s1 _ H.
  rewrite <- H. apply bind_proj; [apply stabilityVec_keep|]. intros v s2 _ H2. cases; exact H2.
Qed.
Lemma computeStability_keep j s : keep4 (outSt (computeStability p o j s)) = keep4 s.
Proof.
  unfold computeStability. pose proof (computeStability__keep (s_U s) j s) as H.
  destruct (computeStability_ p o (s_U s) j s); cbn in *; [exact H|]. destruct (statusOf e); exact H.
Qed.

Lemma keep43 s s' : keep4 s' = keep4 s -> keep3 s' = keep3 s.
Proof. intros H. injection H. intros. unfold keep3, keep2, keep1. congruence. Qed.
Lemma keep32 s s' : keep3 s' = keep3 s -> keep2 s' = keep2 s.
Proof. intros H. injection H. intros. unfold keep2, keep1. congruence. Qed.
Lemma keep21 s s' : keep2 s' = keep2 s -> keep1 s' = keep1 s.
Proof. intros H. injection H. intros. unfold keep1. congruence. Qed.

Lemma defaultPhi_keep s : keep2 (outSt (defaultPhi p o s)) = keep2 s.
Proof. unfold defaultPhi. cases; reflexivity. Qed.
Lemma firstPredictor_keep s : keep2 (outSt (firstPredictor p s)) = keep2 s.
Proof. unfold firstPredictor, solveSystem. cases; reflexivity. Qed.
Lemma secantPredictor_keep u1 l1 u0 l0 s : keep2 (outSt (secantPredictor u1 l1 u0 l0 s)) = keep2 s.
Proof. unfold secantPredictor. cases; reflexivity. Qed.
Lemma scaleStep_keep b s : keep2 (scaleStep b s) = keep2 s.
Proof. destruct b; reflexivity. Qed.
Lemma computeUt_keep2 s : keep2 (outSt (computeUt p s)) = keep2 s.
Proof. apply keep32, keep43, computeUt_keep. Qed.
Lemma stepJacobian_keep2 s : keep2 (outSt (stepJacobian p s)) = keep2 s.
Proof. apply keep32, keep43, stepJacobian_keep. Qed.

Ltac kstep := first [reflexivity | assumption | apply stepJacobian_keep2 | apply computeUt_keep2 | apply defaultPhi_keep | apply firstPredictor_keep
   | apply secantPredictor_keep].
Tactic Notation "kb" ident(s1) ident(K) := apply bind_proj; [|intros ? s1 _ K].

Lemma predictor_keep k s : keep2 (outSt (predictor p o k s)) = keep2 s.
Proof.
  unfold predictor. kb s1 K1; [kstep|]. rewrite <- K1. destruct k.
  - change (keep2 s1) with (keep2 (set_DL (s_len s1) (set_dL (s_len s1) s1))). kb s2 K2; [kstep|]. assumption.
  - destruct (Nat.eqb (p_numDof p) 0); [reflexivity|].
    cbv zeta. set (s1' := set_phi _ s1). change (keep2 s1) with (keep2 s1'). kb s2 K2; [destruct (close _ _ _ _); kstep|].
    cbn [outSt]. rewrite scaleStep_keep. assumption.
  - kb s2 K2; [kstep|]. rewrite <- K2. kb s3 K3.
    + destruct (_ && _); [destruct (rdiv _ _); [cbv zeta; rewrite defaultPhi_keep; reflexivity|reflexivity]|].
      kb s3 K3; [destruct (o_phiUser o); [reflexivity|]; destruct (rdiv _ _); reflexivity|]. exact K3.
    + destruct (o_angle o); exact K3.
  - kb s2 K2; [destruct (close _ _ _ _); kstep|]. rewrite <- K2. kb s3 K3; [kstep|].
    cbn [outSt]. rewrite scaleStep_keep. assumption.
Qed.
Lemma predictorGuess_keep k u l s : keep2 (outSt (predictorGuess p o k u l s)) = keep2 s.
Proof.
  unfold predictorGuess. kb s1 K1; [kstep|]. rewrite <- K1. destruct k.
  - change (keep2 s1) with (keep2 (set_DL (l - s_L s1) (set_dL (l - s_L s1) s1))). kb s2 K2; [kstep|]. assumption.
  - kb s2 K2; [kstep|]. rewrite <- K2. kb s3 K3; [destruct (close _ _ _ _); kstep|].
    cbn [outSt]. change (keep2 (scaleStep true s3) = keep2 s2). rewrite scaleStep_keep. assumption.
  - kb s2 K2; [kstep|]. rewrite <- K2. kb s3 K3; [kstep|]. exact K3.
  - kb s2 K2; [destruct (close _ _ _ _); kstep|]. rewrite <- K2. kb s3 K3; [kstep|].
    cbn [outSt]. rewrite scaleStep_keep. assumption.
Qed.
Lemma predict_keep k s : keep2 (outSt (predict p o k s)) = keep2 s.
Proof.
  unfold predict. destruct (s_guess s) as [[u l]|]; [|apply predictor_keep].
  destruct (_ && _); [apply predictorGuess_keep|apply predictor_keep].
Qed.

Lemma computeLambdaDOT_keep e l1 l2 s : keep3 (computeLambdaDOT e l1 l2 s) = keep3 s.
Proof. unfold computeLambdaDOT. cases; reflexivity. Qed.
Lemma computeLambdasComplex_keep s : keep3 (outSt (computeLambdasComplex p s)) = keep3 s.
Proof. unfold computeLambdasComplex. cases; reflexivity. Qed.
Lemma computeLambdas_keep s : keep3 (outSt (computeLambdas p s)) = keep3 s.
Proof.
  unfold computeLambdas. cases; try reflexivity; try apply computeLambdaDOT_keep.
  kb s1 K1; [apply computeLambdasComplex_keep|]. assumption.
Qed.
Lemma iteration_keep k s : keep3 (outSt (iteration p o k s)) = keep3 s.
Proof.
  unfold iteration. kb s1 K1; [apply keep43, computeUbar_keep|]. rewrite <- K1. destruct k.
  - reflexivity.
  - destruct (rdiv _ _); reflexivity.
  - kb s2 K2; [apply computeLambdas_keep|]. destruct (_ && _), (o_angle o); exact K2.
  - destruct (rdiv _ _); reflexivity.
Qed.
Lemma quasiNewtonIteration_keep k s : keep4 (outSt (quasiNewtonIteration p k s)) = keep4 s.
Proof.
  unfold quasiNewtonIteration. kb s1 K1; [apply stepJacobian_keep|]. destruct k; try assumption;
  rewrite computeUt_keep; assumption.
Qed.
Lemma quasiNewtonPredictor_keep k s : keep4 (outSt (quasiNewtonPredictor p k s)) = keep4 s.
Proof. unfold quasiNewtonPredictor. kb s1 K1; [apply quasiNewtonIteration_keep|]. rewrite computeUbar_keep; assumption. Qed.
Lemma stepOutput_keep s : keep4 (outSt (stepOutput p o s)) = keep4 s.
Proof. apply computeStability_keep. Qed.
Lemma initiateStep_keep k s : keep2 (initiateStep k s) = keep2 s /\ s_guess (initiateStep k s) = s_guess s.
Proof. destruct k; split; reflexivity. Qed.
Lemma norms_keep1 s : keep1 (computeResidualNorms p s) = keep1 s.
Proof. unfold computeResidualNorms. cases; reflexivity. Qed.
Lemma norms_keep3 s : (1 <= s_numIt s)%nat -> keep4 (computeResidualNorms p s) = keep4 s.
Proof. unfold computeResidualNorms. destruct (s_numIt s) eqn:E; [lia|]. intros _. cbn [Nat.eqb]. unfold keep4, keep3, keep2. cbn. rewrite E. reflexivity. Qed.

(** what computeStability leaves alone beside keep4 *)
Definition keepR s := (s_resVec s, s_resF s, s_resU s).
Lemma computeStability_keepR s : keepR (outSt (computeStability p o false s)) = keepR s.
Proof.
  unfold computeStability, computeStability_. cbn [obind].
  assert (H : keepR (outSt (stabilityVec p o s)) = keepR s).
  { unfold stabilityVec, factorizeMatrix. cases; reflexivity. }
  destruct (stabilityVec p o s) as [v s1|e s1]; cbn [obind outSt] in *.
  - destruct (minCoeff v); [exact H|]. cbn. exact H.
  - destruct (statusOf e); exact H.
Qed.

Lemma keepOk {A X} (T : st -> X) (x : out S Mat A) s a s1 : T (outSt x) = T s -> x = Ret a s1 -> T s1 = T s.
Proof. intros H ->. exact H. Qed.
Lemma keepExc {A X} (T : st -> X) (x : out S Mat A) s e s1 : T (outSt x) = T s -> x = Exc e s1 -> T s1 = T s.
Proof. intros H ->. exact H. Qed.

(** one pass of the loop up to the convergence test: [sI] before, [sJ] after iteration(),
    [s1] at the test *)
Record pass k s sI sJ s1 : Prop := {
  ps_iter : iteration p o k sI = Ret tt sJ;
  ps_before : keep4 sI = keep4 s;
  ps_after : keep4 s1 = keep4 sJ;
  ps_res : p_residual p (s_U s1 +v s_DU s1) (s_L s1 + s_DL s1) = Some (s_resVec s1);
  ps_resF : s_resF s1 = rdiv (norm (s_resVec s1)) (s_basF s1);
  ps_resU : s_resU s1 = rdiv (norm (s_dU s1)) (s_basU s1)
}.
Lemma pass_keep3 k s sI sJ s1 : pass k s sI sJ s1 -> keep3 s1 = keep3 s.
Proof.
  intros [H1 H2 H3 _ _ _]. pose proof (keepOk keep3 _ sI _ _ (iteration_keep k sI) H1) as H4.
  apply keep43 in H2, H3. congruence.
Qed.

Lemma stepLoop_body k n i s : (1 <= i)%nat ->
  (exists e s', stepLoop p o k (Datatypes.S n) i s = Exc e s' /\ keep1 s' = keep1 s) \/
  (exists sI sJ s1, pass k (set_numIt i s) sI sJ s1 /\
    stepLoop p o k (Datatypes.S n) i s =
    if convergedTest o s1 then
      let s := iterationFinish o k s1 in
      if s_adaptive s then computeLength s else Ret tt (set_lenPrev (s_len s) s)
    else match n with O => Exc (EThrow 1) s1 | _ => stepLoop p o k n (Datatypes.S i) s1 end).
Proof.
  intros Hi. cbn [stepLoop]. set (s0 := set_numIt i s). assert (K0 : keep1 s0 = keep1 s) by reflexivity.
  match goal with |- context [obind ?x _] => destruct x as [[] sa|e sa] eqn:Ea; cbn [obind] end.
  2:{ left. exists e, sa. split; auto. rewrite <- K0. destruct (newJacobian o i); [|discriminate].
      apply keep21, keep32, keep43. eapply keepExc; [apply quasiNewtonIteration_keep|exact Ea]. }
  assert (Ka : keep4 sa = keep4 s0).
  { destruct (newJacobian o i); [|congruence]. eapply keepOk; [apply quasiNewtonIteration_keep|exact Ea]. }
  destruct (iteration p o k sa) as [[] sb|e sb] eqn:Eb; cbn [obind].
  2:{ left. exists e, sb. split; auto. rewrite <- K0. apply keep21, keep32. rewrite <- (keep43 _ _ Ka).
      eapply keepExc; [apply iteration_keep|exact Eb]. }
  assert (Kb : keep3 sb = keep3 s0).
  { rewrite <- (keep43 _ _ Ka). eapply keepOk; [apply iteration_keep|exact Eb]. }
  destruct (computeStability p o false sb) as [[] sc|e sc] eqn:Ec; cbn [obind].
  2:{ left. exists e, sc. split; auto. rewrite <- K0. apply keep21, keep32. rewrite <- Kb. apply keep43.
      eapply keepExc; [apply computeStability_keep|exact Ec]. }
  assert (Kc : keep4 sc = keep4 sb) by (eapply keepOk; [apply computeStability_keep|exact Ec]).
  destruct (computeResidual p sc) as [[] sd|e sd] eqn:Ed; cbn [obind].
  2:{ left. exists e, sd. split; auto. rewrite <- K0. apply keep21, keep32. rewrite <- Kb. apply keep43. rewrite <- Kc.
      eapply keepExc; [apply computeResidual_keep|exact Ed]. }
  assert (Kd : keep4 sd = keep4 sb) by (rewrite <- Kc; eapply keepOk; [apply computeResidual_keep|exact Ed]).
  set (se := computeResidualNorms p sd). assert (Hi' : s_numIt sd = i).
  { apply keep43, keep32 in Kd. apply keep32 in Kb. rewrite Kb in Kd. injection Kd. intros. assumption. }
  assert (Ke : keep4 se = keep4 sb) by (rewrite <- Kd; apply norms_keep3; lia).
  assert (Re : p_residual p (s_U se +v s_DU se) (s_L se + s_DL se) = Some (s_resVec se) /\
     s_resF se = rdiv (norm (s_resVec se)) (s_basF se) /\ s_resU se = rdiv (norm (s_dU se)) (s_basU se)).
  { unfold computeResidual, computeResidualAt in Ed. destruct (p_residual p _ _) as [r|] eqn:Er; [|discriminate].
    cbn [obind] in Ed. injection Ed as Ed. unfold se, computeResidualNorms. rewrite Hi'. destruct i; [lia|].
    rewrite <- Ed in *. cbn. auto. }
  match goal with |- context [obind ?x _] => destruct x as [[] sf|e sf] eqn:Ef; cbn [obind] end.
  2:{ left. exists e, sf. split; auto. rewrite <- K0. apply keep21, keep32. rewrite <- Kb. apply keep43. rewrite <- Ke.
      destruct (o_verbose o); [|discriminate]. eapply keepExc; [apply stepOutput_keep|exact Ef]. }
  assert (Kf : keep4 sf = keep4 se /\ keepR sf = keepR se).
  { destruct (o_verbose o); [|injection Ef as <-; auto]. split; [eapply keepOk; [apply stepOutput_keep|exact Ef]|].
    eapply keepOk; [apply computeStability_keepR|exact Ef]. }
  destruct Kf as [Kf Kr]. right. exists sa, sb, sf. split; [|reflexivity]. constructor; auto.
  - congruence.
  - injection Kf. injection Kr. intros. destruct Re as (R1 & R2 & R3). congruence.
  - injection Kf. injection Kr. intros. destruct Re as (R1 & R2 & R3). congruence.
  - injection Kf. injection Kr. intros. destruct Re as (R1 & R2 & R3). congruence.
Qed.

(** the end of a converged step *)
Definition finished k s1 s' : Prop :=
  (let s := iterationFinish o k s1 in
   if s_adaptive s then computeLength s else Ret tt (set_lenPrev (s_len s) s)) = Ret tt s'.
Lemma stepLoop_spec k : forall n i s, (1 <= i)%nat ->
  match stepLoop p o k n i s with
  | Exc e s' => keep1 s' = keep1 s
  | Ret _ s' =>
    (n = 0%nat /\ s' = set_numIt i s) \/
    exists s0 sI sJ s1, keep1 s0 = keep1 s /\ s_guess s0 = s_guess s /\ s_phi s0 = s_phi s /\ s_basF s0 = s_basF s /\
      s_basU s0 = s_basU s /\ s_stabPrev s0 = s_stabPrev s /\ (i <= s_numIt s0 < i + n)%nat /\
      pass k s0 sI sJ s1 /\ convergedTest o s1 = true /\ finished k s1 s'
  end.
Proof.
  induction n as [|n IH]; intros i s Hi; [left; auto|].
  destruct (stepLoop_body k n i s Hi) as [(e & s' & E & K)|(sI & sJ & s1 & P & E)]; rewrite E; [exact K|].
  pose proof (pass_keep3 _ _ _ _ _ P) as K3.
  destruct (convergedTest o s1) eqn:Ec.
  - assert (Hn : s_numIt (iterationFinish o k s1) = i).
    { apply keep32 in K3. injection K3. intros. unfold iterationFinish. destruct k; cbn; auto. destruct (o_angle o); auto. }
    cbv zeta.
    assert (Hf : exists s', (if s_adaptive (iterationFinish o k s1) then computeLength (iterationFinish o k s1)
        else Ret tt (set_lenPrev (s_len (iterationFinish o k s1)) (iterationFinish o k s1))) = Ret tt s').
    { destruct (s_adaptive _); [|eauto]. unfold computeLength. rewrite Hn. destruct i; [lia|]. cbn [Nat.eqb]. eauto. }
    destruct Hf as (s' & Hf). rewrite Hf. right. exists (set_numIt i s), sI, sJ, s1.
    do 6 (split; [reflexivity|]). split; [cbn; lia|]. auto.
  - destruct n as [|n].
    + apply keep32, keep21 in K3. exact K3.
    + specialize (IH (Datatypes.S i) s1 ltac:(lia)).
      assert (K1 : keep1 s1 = keep1 s) by (apply keep32, keep21 in K3; exact K3).
      destruct (stepLoop p o k (Datatypes.S n) (Datatypes.S i) s1) as [[] s'|e s']; [|congruence].
      destruct IH as [[E0 _]|(s0 & tI & tJ & t1 & A1 & A2 & A3 & A4 & A5 & A6 & A7 & A8 & A9)]; [discriminate|].
      right. exists s0, tI, tJ, t1. injection K3. intros. cbn in *.
      repeat (split; [congruence|]). split; [lia|]. auto.
Qed.
End Proofs.
