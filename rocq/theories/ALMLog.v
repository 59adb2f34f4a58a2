(** Evaluations made by a step, which of them failed, and the exception that results. *)
From Verif Require Import VS Status ALMBase ALMBaseProofs ALMStep.
Local Open Scope R_scope.

Section Log.
Context {S : VS} {Mat : Type}.
Notation st := (st S Mat).
Notation event := (event S Mat).
Variable p : problem S Mat.
Variable o : opts.
Implicit Types s : st.

Definition asmFail (e : event) : bool := match e with EvResidual _ _ false | EvJacobian _ _ false => true | _ => false end.
Definition linFail (e : event) : bool := match e with EvFactor _ false | EvSolve _ _ false => true | _ => false end.
Definition isResidual (e : event) : bool := match e with EvResidual _ _ _ => true | _ => false end.
Definition clean (l : list event) : Prop := forall e, In e l -> asmFail e = false /\ linFail e = false.
Definition nres (l : list event) : nat := length (filter isResidual l).
Lemma clean_app l1 l2 : clean (l1 ++ l2) <-> clean l1 /\ clean l2.
Proof.
  unfold clean. split.
  - intros H. split; intros e He; apply H, in_or_app; auto.
  - intros [H1 H2] e He. apply in_app_or in He. destruct He; auto.
Qed.
Lemma clean_nil : clean [].
Proof. intros e []. Qed.
Lemma clean_one e : asmFail e = false -> linFail e = false -> clean [e].
Proof. intros H1 H2 e' [<-|[]]. auto. Qed.
Lemma nres_app l1 l2 : nres (l1 ++ l2) = (nres l1 + nres l2)%nat.
Proof. unfold nres. rewrite filter_app, app_length. reflexivity. Qed.

(** the stability vector is never empty *)
Definition wellPosed : Prop :=
  (forall m, p_diag p m <> []) /\ (forall m l, p_eig p m = Some l -> l <> []) /\ (0 < p_numDof p)%nat /\ o_bif o <> BifUnknown.
(** there is a tangent matrix, and it is the factorised one *)
Definition jacOK s : Prop := exists m, s_jac s = Some m /\ s_fact s = Some m /\ p_factor p m = true.

(** the evaluations of an execution with [n] residual evaluations *)
Definition logs {A} (n : nat) s (x : out S Mat A) : Prop :=
  exists evs, s_log (outSt x) = s_log s ++ evs /\
  match x with
  | Ret _ s' => clean evs /\ nres evs = n /\ jacOK s' /\ s_numIt s' = s_numIt s
  | Exc e _ => (nres evs <= n)%nat /\
    ((exists pre ev, evs = pre ++ [ev] /\ clean pre /\
      ((e = EThrow 2 /\ asmFail ev = true) \/ (e = EThrow 3 /\ linFail ev = true))) \/
     (clean evs /\ (e = ENaN \/ (e = EUndef /\ ~ wellPosed))))
  end.

Lemma logs_bind {A B} n1 n2 s (x : out S Mat A) (f : A -> st -> out S Mat B) :
  logs n1 s x -> (forall a s1, jacOK s1 -> s_numIt s1 = s_numIt s -> logs n2 s1 (f a s1)) -> logs (n1 + n2) s (obind x f).
Proof.
  intros (evs & E1 & H1) Hf. destruct x as [a s1|e s1]; cbn [obind outSt] in *.
  - destruct H1 as (C1 & N1 & J1 & I1). destruct (Hf a s1 J1 I1) as (ev2 & E2 & H2). exists (evs ++ ev2).
    split; [rewrite E2, E1, app_assoc; reflexivity|].
    destruct (f a s1) as [b s2|e s2].
    + destruct H2 as (C2 & N2 & J2 & I2). split; [apply clean_app; auto|]. split; [rewrite nres_app; lia|].
      split; [auto|congruence].
    + destruct H2 as (N2 & H2). split; [rewrite nres_app; lia|]. destruct H2 as [(pre & ev & -> & C2 & H2)|(C2 & H2)].
      * left. exists (evs ++ pre), ev. split; [apply app_assoc|]. split; [apply clean_app; auto|auto].
      * right. split; [apply clean_app; auto|auto].
  - exists evs. split; [auto|]. destruct H1 as (N1 & H1). split; [lia|auto].
Qed.
Lemma logs_bind0 {A B} n s (x : out S Mat A) (f : A -> st -> out S Mat B) :
  logs 0 s x -> (forall a s1, jacOK s1 -> s_numIt s1 = s_numIt s -> logs n s1 (f a s1)) -> logs n s (obind x f).
Proof. apply (logs_bind 0 n). Qed.

Lemma logs_ret {A} (a : A) s s' : s_log s' = s_log s -> s_numIt s' = s_numIt s -> jacOK s' -> logs 0 s (Ret a s').
Proof. intros E I J. exists []. split; [cbn; rewrite app_nil_r; auto|]. split; [apply clean_nil|auto]. Qed.
Lemma logs_nan {A} s s' : s_log s' = s_log s -> logs (A := A) 0 s (Exc ENaN s').
Proof. intros E. exists []. split; [cbn; rewrite app_nil_r; auto|]. split; [auto|]. right. split; [apply clean_nil|auto]. Qed.
Lemma logs_jac {A} n s s0 (x : out S Mat A) : s_log s0 = s_log s -> s_numIt s0 = s_numIt s -> logs n s0 x -> logs n s x.
Proof. intros E I (evs & H1 & H2). exists evs. rewrite <- E, <- I. auto. Qed.

Lemma jacOK_ext s s' : s_jac s' = s_jac s -> s_fact s' = s_fact s -> jacOK s -> jacOK s'.
Proof. unfold jacOK. intros -> ->. auto. Qed.

Lemma log_jacobian u du s : logs 0 s (refreshJacobian p u du s).
Proof.
  unfold refreshJacobian, computeJacobianAt, factorizeMatrix. destruct (p_jacobian p u du) as [m|] eqn:E; cbn [isSome].
  - destruct (p_factor p m) eqn:Ef; cbn [obind].
    + rewrite Ef. exists [EvJacobian u du true; EvFactor m true; EvFactor m true]. split.
      { cbn. rewrite <- !app_assoc. reflexivity. }
      split; [|split; [reflexivity|split; [exists m; auto|reflexivity]]]. intros e [<-|[<-|[<-|[]]]]; auto.
    + exists [EvJacobian u du true; EvFactor m false]. split; [cbn; rewrite <- app_assoc; reflexivity|].
      split; [cbn; lia|]. left. exists [EvJacobian u du true], (EvFactor m false). split; auto. split; [|auto].
      apply clean_one; auto.
  - exists [EvJacobian u du false]. split; [reflexivity|]. split; [cbn; lia|]. left.
    exists [], (EvJacobian u du false). split; auto. split; [apply clean_nil|auto].
Qed.
Lemma log_solve f s : jacOK s -> logs 0 s (solveSystem p f s).
Proof.
  intros (m & J1 & J2 & J3). unfold solveSystem. rewrite J2. destruct (p_solve p m f) as [x|] eqn:E; cbn [isSome].
  - exists [EvSolve m f true]. split; [reflexivity|]. split; [apply clean_one; auto|]. split; [reflexivity|]. split; [exists m; auto|reflexivity].
  - exists [EvSolve m f false]. split; [reflexivity|]. split; [cbn; lia|]. left. exists [], (EvSolve m f false).
    split; auto. split; [apply clean_nil|auto].
Qed.
Lemma log_residual s : jacOK s -> logs 1 s (computeResidual p s).
Proof.
  intros J. unfold computeResidual, computeResidualAt. destruct (p_residual p _ _) as [r|] eqn:E; cbn [isSome obind].
  - eexists [EvResidual _ _ true]. split; [reflexivity|]. split; [apply clean_one; auto|]. split; [reflexivity|].
    split; [apply (jacOK_ext s); auto|reflexivity].
  - eexists [EvResidual _ _ false]. split; [reflexivity|]. split; [cbn; lia|]. left. eexists [], _.
    split; [reflexivity|]. split; [apply clean_nil|auto].
Qed.
Lemma log_Ut s : jacOK s -> logs 0 s (computeUt p s).
Proof.
  intros J. unfold computeUt. apply logs_bind0; [apply log_solve; auto|]. intros. apply logs_ret; [reflexivity|reflexivity|].
  apply (jacOK_ext s1); auto.
Qed.
Lemma log_Ubar s : jacOK s -> logs 0 s (computeUbar p s).
Proof.
  intros J. unfold computeUbar. apply logs_bind0; [apply log_solve; auto|]. intros. apply logs_ret; [reflexivity|reflexivity|].
  apply (jacOK_ext s1); auto.
Qed.
Lemma minCoeff_none l : minCoeff l = None -> l = [].
Proof. destruct l; cbn; auto. destruct (minCoeff l); discriminate. Qed.
Lemma log_stability s : jacOK s -> logs 0 s (computeStability p o false s).
Proof.
  intros (m & J1 & J2 & J3). unfold computeStability, computeStability_. cbn [obind].
  unfold stabilityVec, factorizeMatrix. destruct (o_bif o) eqn:Eb.
  - cbn [obind]. destruct (minCoeff (repeat 0 (p_numDof p))) eqn:Em.
    + apply logs_ret; [reflexivity|reflexivity|]. exists m. auto.
    + apply minCoeff_none in Em. cbn. exists []. split; [cbn; rewrite app_nil_r; reflexivity|]. split; [auto|]. right.
      split; [apply clean_nil|]. right. split; auto. intros (_ & _ & H & _). destruct (p_numDof p); [lia|discriminate].
  - destruct (o_ldlt o); cbn [obind]; [|apply logs_ret; [reflexivity|reflexivity|exists m; auto]].
    rewrite J1. rewrite J3. cbn [obind]. destruct (minCoeff (p_diag p m)) eqn:Em.
    + exists [EvFactor m true]. split; [reflexivity|]. split; [apply clean_one; auto|]. split; [reflexivity|].
      split; [exists m; auto|reflexivity].
    + apply minCoeff_none in Em. exists [EvFactor m true]. split; [reflexivity|]. split; [auto|]. right.
      split; [apply clean_one; auto|]. right. split; auto. intros (H & _). exact (H _ Em).
  - rewrite J1. destruct (p_eig p m) as [l|] eqn:El; cbn [obind isSome].
    + destruct (minCoeff l) eqn:Em.
      * exists [EvEigen m true]. split; [reflexivity|]. split; [apply clean_one; auto|]. split; [reflexivity|].
        split; [exists m; auto|reflexivity].
      * apply minCoeff_none in Em. exists [EvEigen m true]. split; [reflexivity|]. split; [auto|]. right.
        split; [apply clean_one; auto|]. right. split; auto. intros (_ & H & _). exact (H _ _ El Em).
    + exists [EvEigen m false]. split; [reflexivity|]. split; [apply clean_one; auto|]. split; [reflexivity|].
      split; [exists m; auto|reflexivity].
  - cbn [obind]. destruct (minCoeff (s_stabVec s)) eqn:Em.
    + apply logs_ret; [reflexivity|reflexivity|]. exists m. auto.
    + cbn. exists []. split; [cbn; rewrite app_nil_r; reflexivity|]. split; [auto|]. right.
      split; [apply clean_nil|]. right. split; auto. intros (_ & _ & _ & H). congruence.
Qed.

Ltac jok := match goal with J : jacOK ?s |- jacOK _ => apply (jacOK_ext s); [reflexivity|reflexivity|exact J] end.
Ltac lret := first [apply logs_nan; reflexivity | apply logs_ret; [reflexivity|reflexivity|jok]].
Ltac ldes := match goal with |- context [match ?x with _ => _ end] => destruct x end.

Lemma log_defaultPhi s : jacOK s -> logs 0 s (defaultPhi p o s).
Proof. intros J. unfold defaultPhi. destruct (o_phiUser o); [lret|]. destruct (rdiv _ _); lret. Qed.
Lemma log_first s : jacOK s -> logs 0 s (firstPredictor p s).
Proof.
  intros J. unfold firstPredictor. apply logs_bind0; [apply log_solve; auto|]. intros x s1 J1 _. cbv zeta.
  destruct (Rleb _ _); lret.
Qed.
Lemma log_secant u1 l1 u0 l0 s : jacOK s -> logs 0 s (secantPredictor u1 l1 u0 l0 s).
Proof. intros J. unfold secantPredictor. destruct (Reqb _ _); lret. Qed.
Lemma scaleStep_log b s : s_log (scaleStep b s) = s_log s /\ s_jac (scaleStep b s) = s_jac s /\ s_fact (scaleStep b s) = s_fact s /\
  s_numIt (scaleStep b s) = s_numIt s.
Proof. destruct b; auto. Qed.
Lemma log_scale b s s' : s_log s' = s_log s -> s_numIt s' = s_numIt s -> jacOK s' -> logs 0 s (Ret tt (scaleStep b s')).
Proof.
  intros E I J. destruct (scaleStep_log b s') as (A1 & A2 & A3 & A4). apply logs_ret; [congruence|congruence|].
  apply (jacOK_ext s'); auto.
Qed.
Lemma log_predictor k s : logs 0 s (predictor p o k s).
Proof.
  unfold predictor. apply logs_bind0; [apply log_jacobian|]. intros _ s1 J1 I1. destruct k.
  - apply (logs_jac _ _ (set_DL (s_len s1) (set_dL (s_len s1) s1))); [reflexivity|reflexivity|].
    apply logs_bind0; [apply log_Ut; jok|]. intros _ s2 J2 I2. lret.
  - destruct (Nat.eqb (p_numDof p) 0); [lret|]. cbv zeta. set (s1' := set_phi _ s1).
    assert (J1' : jacOK s1') by jok. apply (logs_jac _ _ s1'); [reflexivity|reflexivity|].
    apply logs_bind0; [destruct (close _ _ _ _); [apply log_first|apply log_secant]; auto|].
    intros _ s2 J2 I2. apply log_scale; auto.
  - apply logs_bind0; [apply log_Ut; auto|]. intros _ s2 J2 I2. apply logs_bind0.
    + destruct (_ && _).
      * destruct (rdiv _ _); [|lret]. cbv zeta. eapply logs_jac; [| |apply log_defaultPhi; jok]; reflexivity.
      * apply logs_bind0; [destruct (o_phiUser o); [lret|]; destruct (rdiv _ _); lret|]. intros _ s3 J3 I3. lret.
    + intros _ s3 J3 I3. destruct (o_angle o); lret.
  - apply logs_bind0; [destruct (close _ _ _ _); [apply log_first|apply log_secant]; auto|].
    intros _ s2 J2 I2. apply logs_bind0; [apply log_defaultPhi; auto|]. intros _ s3 J3 I3. apply log_scale; auto.
Qed.
Lemma log_predictorGuess k u l s : logs 0 s (predictorGuess p o k u l s).
Proof.
  unfold predictorGuess. apply logs_bind0; [apply log_jacobian|]. intros _ s1 J1 I1. destruct k.
  - apply (logs_jac _ _ (set_DL (l - s_L s1) (set_dL (l - s_L s1) s1))); [reflexivity|reflexivity|].
    apply logs_bind0; [apply log_Ut; jok|]. intros _ s2 J2 I2. lret.
  - apply logs_bind0; [apply log_Ut; auto|]. intros _ s2 J2 I2.
    apply logs_bind0; [destruct (close _ _ _ _); [apply log_first|apply log_secant]; auto|].
    intros _ s3 J3 I3. destruct (scaleStep_log true s3) as (A1 & A2 & A3 & A4).
    apply logs_ret; [exact A1|exact A4|]. apply (jacOK_ext s3); auto.
  - apply logs_bind0; [apply log_Ut; auto|]. intros _ s2 J2 I2. apply logs_bind0; [apply log_defaultPhi; auto|].
    intros _ s3 J3 I3. lret.
  - apply logs_bind0; [destruct (close _ _ _ _); [apply log_first|apply log_secant]; auto|].
    intros _ s2 J2 I2. apply logs_bind0; [apply log_defaultPhi; auto|]. intros _ s3 J3 I3. apply log_scale; auto.
Qed.
Lemma log_predict k s : logs 0 s (predict p o k s).
Proof.
  unfold predict. destruct (s_guess s) as [[u l]|]; [|apply log_predictor].
  destruct (_ && _); [apply log_predictorGuess|apply log_predictor].
Qed.
Lemma DOT_log e l1 l2 s : s_log (computeLambdaDOT e l1 l2 s) = s_log s /\
  s_jac (computeLambdaDOT e l1 l2 s) = s_jac s /\ s_fact (computeLambdaDOT e l1 l2 s) = s_fact s /\
  s_numIt (computeLambdaDOT e l1 l2 s) = s_numIt s.
Proof. unfold computeLambdaDOT. cbv zeta. repeat ldes; auto. Qed.
Lemma etaModified_err c e : etaModified c = Fail e -> e = ENaN.
Proof. unfold etaModified. cbv zeta. destruct (Rltb _ 0); [discriminate|]. destruct (Reqb _ 0); [congruence|discriminate]. Qed.
Lemma log_lambdas s : jacOK s -> logs 0 s (computeLambdas p s).
Proof.
  intros J. unfold computeLambdas. cbv zeta. destruct (Reqb _ 0); [lret|]. destruct (Rleb 0 _).
  - match goal with |- logs _ _ (Ret _ (computeLambdaDOT ?e ?a ?b s)) => destruct (DOT_log e a b s) as (A1 & A2 & A3 & A4) end.
    apply logs_ret; auto. apply (jacOK_ext s); auto.
  - destruct (etaModified _) as [[D2 eta]|e] eqn:E.
    + destruct (_ && _).
      * match goal with |- logs _ _ (Ret _ (computeLambdaDOT ?e ?a ?b s)) => destruct (DOT_log e a b s) as (A1 & A2 & A3 & A4) end.
        apply logs_ret; auto. apply (jacOK_ext s); auto.
      * apply logs_bind0.
        -- unfold computeLambdasComplex. destruct J as (m & J1 & J2 & J3). rewrite J1. cbv zeta.
           assert (J : jacOK s) by (exists m; auto). destruct (rdiv _ _); [|lret]. destruct (rdiv _ _); lret.
        -- intros _ s1 J1 I1. lret.
    + apply etaModified_err in E. subst. lret.
Qed.
Lemma log_iteration k s : jacOK s -> logs 0 s (iteration p o k s).
Proof.
  intros J. unfold iteration. apply logs_bind0; [apply log_Ubar; auto|]. intros _ s1 J1 I1. destruct k.
  - lret.
  - cbv zeta. destruct (rdiv _ _); lret.
  - apply logs_bind0; [apply log_lambdas; auto|]. intros eta s2 J2 I2. cbv zeta. destruct (_ && _), (o_angle o); lret.
  - cbv zeta. destruct (rdiv _ _); lret.
Qed.
Lemma log_quasi k s : logs 0 s (quasiNewtonIteration p k s).
Proof.
  unfold quasiNewtonIteration. apply logs_bind0; [apply log_jacobian|]. intros _ s1 J1 I1. destruct k; [lret| | |]; apply log_Ut; auto.
Qed.
Lemma log_quasiPredictor k s : logs 0 s (quasiNewtonPredictor p k s).
Proof. unfold quasiNewtonPredictor. apply logs_bind0; [apply log_quasi|]. intros. apply log_Ubar; auto. Qed.
Lemma norms_log s : s_log (computeResidualNorms p s) = s_log s /\ s_jac (computeResidualNorms p s) = s_jac s /\
  s_fact (computeResidualNorms p s) = s_fact s /\ s_numIt (computeResidualNorms p s) = s_numIt s.
Proof. unfold computeResidualNorms. cbv zeta. destruct (Nat.eqb _ _); auto. Qed.

(** outcome of the loop with [n] passes left *)
Definition logsLoop (n : nat) s (x : out S Mat unit) : Prop :=
  exists evs, s_log (outSt x) = s_log s ++ evs /\ (nres evs <= n)%nat /\
  match x with
  | Ret _ s' => clean evs
  | Exc e s' =>
    (exists pre ev, evs = pre ++ [ev] /\ clean pre /\
      ((e = EThrow 2 /\ asmFail ev = true) \/ (e = EThrow 3 /\ linFail ev = true))) \/
    (clean evs /\ (e = ENaN \/ (e = EUndef /\ ~ wellPosed))) \/
    (clean evs /\ e = EThrow 1 /\ nres evs = n /\ convergedTest o s' = false)
  end.
Lemma logs_loop {A} n1 n2 s (x : out S Mat A) f :
  logs n1 s x -> (forall a s1, jacOK s1 -> s_numIt s1 = s_numIt s -> logsLoop n2 s1 (f a s1)) -> logsLoop (n1 + n2) s (obind x f).
Proof.
  intros (evs & E1 & H1) Hf. destruct x as [a s1|e s1]; cbn [obind outSt] in *.
  - destruct H1 as (C1 & N1 & J1 & I1). destruct (Hf a s1 J1 I1) as (ev2 & E2 & N2 & H2). exists (evs ++ ev2).
    split; [rewrite E2, E1, app_assoc; reflexivity|]. split; [rewrite nres_app; lia|].
    destruct (f a s1) as [b s2|e s2].
    + apply clean_app; auto.
    + destruct H2 as [(pre & ev & -> & C2 & H2)|[(C2 & H2)|(C2 & H2 & H3 & H5)]].
      * left. exists (evs ++ pre), ev. split; [apply app_assoc|]. split; [apply clean_app; auto|auto].
      * right. left. split; [apply clean_app; auto|auto].
      * right. right. split; [apply clean_app; auto|]. split; auto. split; [rewrite nres_app; lia|auto].
  - exists evs. split; [auto|]. destruct H1 as (N1 & H1). split; [lia|]. destruct H1; auto.
Qed.
Lemma loop_logs {A} (n : nat) s (x : out S Mat A) f :
  logs 0 s x -> (forall a s1, jacOK s1 -> s_numIt s1 = s_numIt s -> logsLoop n s1 (f a s1)) -> logsLoop n s (obind x f).
Proof. intros H1 H2. apply (logs_loop 0 n); auto. Qed.
Lemma loop_jac n s s0 x : s_log s0 = s_log s -> logsLoop n s0 x -> logsLoop n s x.
Proof. intros E (evs & H1 & H2). exists evs. rewrite <- E. auto. Qed.

Lemma finish_log k s s' : finished o k s s' -> s_log s' = s_log s.
Proof.
  unfold finished. cbv zeta. intros H. assert (E : s_log (iterationFinish o k s) = s_log s).
  { unfold iterationFinish. destruct k; cbn; auto. destruct (o_angle o); auto. }
  destruct (s_adaptive _).
  - unfold computeLength in H. destruct (Nat.eqb _ _); [discriminate|]. cbv zeta in H. injection H as <-. exact E.
  - injection H as <-. exact E.
Qed.

Lemma log_stepLoop k : forall n i s, (1 <= i)%nat -> jacOK s -> logsLoop n s (stepLoop p o k n i s).
Proof.
  induction n as [|n IH]; intros i s Hi J.
  - cbn [stepLoop]. exists []. split; [cbn; rewrite app_nil_r; reflexivity|]. split; [auto|]. apply clean_nil.
  - cbn [stepLoop]. apply (loop_jac _ _ (set_numIt i s)); [reflexivity|]. set (s0 := set_numIt i s).
    assert (J0 : jacOK s0) by jok.
    apply loop_logs; [destruct (newJacobian o i); [apply log_quasi|lret]|]. intros _ s1 J1 I1.
    apply loop_logs; [apply log_iteration; auto|]. intros _ s2 J2 I2.
    apply loop_logs; [apply log_stability; auto|]. intros _ s3 J3 I3.
    apply (logs_loop 1 n); [apply log_residual; auto|]. intros _ s4 J4 I4. cbv zeta.
    destruct (norms_log s4) as (A1 & A2 & A3 & A4). set (s5 := computeResidualNorms p s4) in *.
    assert (J5 : jacOK s5) by (apply (jacOK_ext s4); auto).
    apply (loop_jac _ _ s5); [auto|]. assert (I5 : s_numIt s5 = i) by (rewrite A4, I4, I3, I2, I1; reflexivity).
    clearbody s5. clear s4 J4 I4 A1 A2 A3 A4.
    apply loop_logs; [destruct (o_verbose o); [apply log_stability; auto|lret]|]. intros _ s6 J6 I6.
    destruct (convergedTest o s6) eqn:Ec.
    + exists []. rewrite app_nil_r. split; [|split; [cbn; lia|]].
      * set (s7 := iterationFinish o k s6). assert (E : s_log s7 = s_log s6).
        { unfold s7, iterationFinish. destruct k; cbn; auto. destruct (o_angle o); auto. }
        destruct (s_adaptive s7); [|exact E]. unfold computeLength. destruct (Nat.eqb _ _); exact E.
      * set (s7 := iterationFinish o k s6). assert (E : s_numIt s7 = i).
        { rewrite <- I5, <- I6. unfold s7, iterationFinish. destruct k; cbn; auto. destruct (o_angle o); auto. }
        destruct (s_adaptive s7); [|apply clean_nil]. unfold computeLength. rewrite E. destruct i; [lia|].
        cbn. apply clean_nil.
    + destruct n as [|n].
      * exists []. split; [cbn; rewrite app_nil_r; reflexivity|]. split; [auto|]. right. right.
        split; [apply clean_nil|auto].
      * apply IH; [lia|auto].
Qed.

(** the evaluations of a whole step *)
Lemma log_step k s : s_initialized s = true ->
  exists evs, s_log (outSt (step_ p o k s)) = s_log s ++ evs /\ (nres evs <= Nat.max 1 (o_maxIt o))%nat /\
  match step_ p o k s with
  | Ret _ s' => clean evs
  | Exc e s' =>
    (exists pre ev, evs = pre ++ [ev] /\ clean pre /\
      ((e = EThrow 2 /\ asmFail ev = true) \/ (e = EThrow 3 /\ linFail ev = true))) \/
    (clean evs /\ (e = ENaN \/ (e = EUndef /\ ~ wellPosed))) \/
    (clean evs /\ e = EThrow 1 /\ nres evs = o_maxIt o /\ (2 <= o_maxIt o)%nat /\ convergedTest o s' = false)
  end.
Proof.
  intros Hi. unfold step_. rewrite Hi. cbn [negb]. fold (started k s).
  match goal with |- exists evs, s_log (outSt ?x) = _ /\ _ => set (X := x) end.
  assert (H : logsLoop (1 + (o_maxIt o - 1)) s X).
  { apply (loop_jac _ _ (started k s)); [destruct k; reflexivity|].
    unfold X. apply loop_logs; [apply log_predict|]. intros _ s1 J1 I1.
    apply logs_loop; [apply log_residual; auto|]. intros _ s2 J2 I2. cbv zeta.
    destruct (norms_log s2) as (A1 & A2 & A3 & A4). set (s3 := computeResidualNorms p s2) in *.
    assert (J3 : jacOK s3) by (apply (jacOK_ext s2); auto). apply (loop_jac _ _ s3); auto.
    apply loop_logs; [destruct (o_verbose o); [apply log_stability; auto|lret]|]. intros _ s4 J4 I4.
    apply loop_logs; [destruct (o_quasi o); [apply log_quasiPredictor|lret]|]. intros _ s5 J5 I5.
    apply (loop_jac _ _ (set_stabPrev (s_stab s5) s5)); [reflexivity|]. apply log_stepLoop; [lia|jok]. }
  assert (H1 : (o_maxIt o <= 1)%nat -> forall s', X <> Exc (EThrow 1) s').
  { intros Hm s' E. unfold X in E. replace (o_maxIt o - 1)%nat with 0%nat in E by lia. cbn [stepLoop] in E.
    clear X H. destruct (predict p o k (started k s)) as [[] s1|e s1] eqn:E1; cbn [obind] in E.
    2:{ injection E as -> ->. destruct (log_predict k (started k s)) as (evs & _ & L). rewrite E1 in L.
        destruct L as (_ & [(pre & ev & _ & _ & [[? _]|[? _]])|(_ & [?|[? _]])]); discriminate. }
    destruct (log_predict k (started k s)) as (evs & _ & L). rewrite E1 in L. destruct L as (_ & _ & J1 & _).
    destruct (computeResidual p s1) as [[] s2|e s2] eqn:E2; cbn [obind] in E.
    2:{ injection E as -> ->. destruct (log_residual s1 J1) as (ev2 & _ & L). rewrite E2 in L.
        destruct L as (_ & [(pre & ev & _ & _ & [[? _]|[? _]])|(_ & [?|[? _]])]); discriminate. }
    destruct (log_residual s1 J1) as (ev2 & _ & L). rewrite E2 in L. destruct L as (_ & _ & J2 & _).
    destruct (norms_log s2) as (A1 & A2 & A3 & A4). set (s3 := computeResidualNorms p s2) in *.
    assert (J3 : jacOK s3) by (apply (jacOK_ext s2); auto).
    match type of E with context [obind ?x _] => destruct x as [[] s4|e s4] eqn:E4; cbn [obind] in E end.
    2:{ injection E as -> ->. destruct (o_verbose o); [|discriminate].
        destruct (log_stability s3 J3) as (ev3 & _ & L). unfold stepOutput in E4. rewrite E4 in L.
        destruct L as (_ & [(pre & ev & _ & _ & [[? _]|[? _]])|(_ & [?|[? _]])]); discriminate. }
    match type of E with context [obind ?x _] => destruct x as [[] s5|e s5] eqn:E5; cbn [obind] in E end; [discriminate|].
    injection E as -> ->. destruct (o_quasi o); [|discriminate].
    destruct (log_quasiPredictor k s4) as (ev3 & _ & L). rewrite E5 in L.
    destruct L as (_ & [(pre & ev & _ & _ & [[? _]|[? _]])|(_ & [?|[? _]])]); discriminate. }
  destruct H as (evs & E & N & H). exists evs. split; [exact E|]. split; [lia|].
  clearbody X. destruct X as [[] s'|e s']; [exact H|]. destruct H as [H|[H|(H & -> & H2 & H3)]]; auto.
  right. right. split; auto. split; auto. assert (2 <= o_maxIt o)%nat.
  { destruct (Nat.le_gt_cases (o_maxIt o) 1) as [L|L]; [|lia]. destruct (H1 L s' eq_refl). }
  split; [lia|auto].
Qed.
End Log.
