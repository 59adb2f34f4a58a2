(** The points at which a step evaluates the residual. *)
From Verif Require Import VS Status ALMBase ALMBaseProofs ALMStep ALMLog.
Local Open Scope R_scope.

Section Points.
Context {S : VS} {Mat : Type}.
Notation st := (st S Mat).
Notation event := (event S Mat).
Variable p : problem S Mat.
Variable o : opts.
Implicit Types s : st.

(** the points of the residual evaluations, in order *)
Fixpoint points (l : list event) : list (S * R) :=
  match l with
  | [] => []
  | EvResidual u l0 _ :: l => (u, l0) :: points l
  | _ :: l => points l
  end.
Lemma points_app l1 l2 : points (l1 ++ l2) = points l1 ++ points l2.
Proof. induction l1 as [|[] l1 IH]; cbn; auto. rewrite IH. reflexivity. Qed.
Lemma nres_points l : nres l = length (points l).
Proof. unfold nres. induction l as [|[] l IH]; cbn; auto. Qed.
Lemma nres0_points l : nres l = 0%nat -> points l = [].
Proof. rewrite nres_points. destruct (points l); [auto|discriminate]. Qed.

(** every iteration adds m_deltaU to m_DeltaU *)
Lemma iteration_increment k s s' : iteration p o k s = Ret tt s' -> s_DU s' = s_DU s +v s_dU s'.
Proof.
  unfold iteration. intros H. destruct (computeUbar p s) as [[] s1|e s1] eqn:E1; [|discriminate]. cbn [obind] in H.
  assert (K1 : s_DU s1 = s_DU s).
  { pose proof (keepOk (S:=S) (Mat:=Mat) keep4 _ s _ _ (computeUbar_keep p s) E1) as K. injection K. auto. }
  destruct k; cbv zeta in H.
  - injection H as <-. cbn. rewrite K1. reflexivity.
  - destruct (rdiv _ _); [|discriminate]. injection H as <-. cbn. rewrite K1. reflexivity.
  - destruct (computeLambdas p s1) as [eta s2|e s2] eqn:E2; [|discriminate]. cbn [obind] in H.
    assert (K2 : s_DU s2 = s_DU s1).
    { clear - E2. unfold computeLambdas in E2. cbv zeta in E2. destruct (Reqb _ 0); [discriminate|].
      assert (D : forall e l1 l2 (x : st), s_DU (computeLambdaDOT e l1 l2 x) = s_DU x).
      { intros. unfold computeLambdaDOT. cbv zeta. destruct (Rltb _ _); auto. destruct (Rltb _ _); auto. }
      destruct (Rleb 0 _); [injection E2 as _ <-; apply D|]. destruct (etaModified _) as [[D2 et]|]; [|discriminate].
      destruct (_ && _); [injection E2 as _ <-; apply D|].
      unfold computeLambdasComplex in E2. destruct (s_jac s1); [|discriminate]. cbv zeta in E2.
      destruct (rdiv _ _); [|discriminate]. destruct (rdiv _ _); [|discriminate]. cbn in E2. injection E2 as _ <-. reflexivity. }
    rewrite <- K1, <- K2. destruct (_ && _), (o_angle o); injection H as <-; reflexivity.
  - destruct (rdiv _ _); [|discriminate]. injection H as <-. cbn. rewrite K1. reflexivity.
Qed.

(** [logs] for an execution that returns *)
Lemma logs_ok {A} n s (x : out S Mat A) a s' : logs p o n s x -> x = Ret a s' ->
  exists evs, s_log s' = s_log s ++ evs /\ nres evs = n /\ jacOK p s'.
Proof. intros (evs & E & H) ->. destruct H as (_ & H1 & H2 & _). exists evs. auto. Qed.

(** one pass of the loop, with the point it evaluates *)
Lemma pass_points k n i s s' : (1 <= i)%nat -> jacOK p s -> stepLoop p o k (Datatypes.S n) i s = Ret tt s' ->
  exists sI sJ s1 evs, pass p o k (set_numIt i s) sI sJ s1 /\ jacOK p s1 /\
    s_log s1 = s_log s ++ evs /\ points evs = [(s_U s +v s_DU s1, s_L s + s_DL s1)] /\
    (if convergedTest o s1 then finished o k s1 s'
     else n <> 0%nat /\ stepLoop p o k n (Datatypes.S i) s1 = Ret tt s').
Proof.
  intros Hi J H. cbn [stepLoop] in H. set (s0 := set_numIt i s) in *.
  assert (J0 : jacOK p s0) by (apply (jacOK_ext p s); auto).
  match type of H with obind ?x _ = _ => destruct x as [[] sa|] eqn:Ea; [|discriminate] end. cbn [obind] in H.
  assert (La : logs p o 0 s0 (if newJacobian o i then quasiNewtonIteration p k s0 else Ret tt s0)).
  { destruct (newJacobian o i); [apply log_quasi|apply logs_ret; auto]. }
  destruct (logs_ok _ _ _ _ _ La Ea) as (e1 & G1 & N1 & J1).
  assert (Ka : keep4 sa = keep4 s0).
  { destruct (newJacobian o i); [|congruence]. eapply keepOk; [apply quasiNewtonIteration_keep|exact Ea]. }
  destruct (iteration p o k sa) as [[] sb|] eqn:Eb; [|discriminate]. cbn [obind] in H.
  destruct (logs_ok _ _ _ _ _ (log_iteration p o k sa J1) Eb) as (e2 & G2 & N2 & J2).
  assert (Kb : keep3 sb = keep3 s0).
  { rewrite <- (keep43 _ _ Ka). eapply keepOk; [apply iteration_keep|exact Eb]. }
  destruct (computeStability p o false sb) as [[] sc|] eqn:Ec; [|discriminate]. cbn [obind] in H.
  destruct (logs_ok _ _ _ _ _ (log_stability p o sb J2) Ec) as (e3 & G3 & N3 & J3).
  assert (Kc : keep4 sc = keep4 sb) by (eapply keepOk; [apply computeStability_keep|exact Ec]).
  destruct (computeResidual p sc) as [[] sd|] eqn:Ed; [|discriminate]. cbn [obind] in H.
  destruct (logs_ok _ _ _ _ _ (log_residual p o sc J3) Ed) as (e4 & G4 & N4 & J4).
  assert (Kd : keep4 sd = keep4 sb) by (rewrite <- Kc; eapply keepOk; [apply computeResidual_keep|exact Ed]).
  set (se := computeResidualNorms p sd) in *. assert (Hi' : s_numIt sd = i).
  { apply keep43, keep32 in Kd. apply keep32 in Kb. rewrite Kb in Kd. injection Kd. intros. assumption. }
  assert (Ke : keep4 se = keep4 sb) by (rewrite <- Kd; apply norms_keep3; lia).
  destruct (norms_log p sd) as (G5 & A2 & A3 & _). fold se in G5, A2, A3.
  assert (J5 : jacOK p se) by (apply (jacOK_ext p sd); auto).
  assert (Re : p_residual p (s_U se +v s_DU se) (s_L se + s_DL se) = Some (s_resVec se) /\
     s_resF se = rdiv (norm (s_resVec se)) (s_basF se) /\ s_resU se = rdiv (norm (s_dU se)) (s_basU se) /\
     points e4 = [(s_U se +v s_DU se, s_L se + s_DL se)]).
  { unfold computeResidual, computeResidualAt in Ed. destruct (p_residual p _ _) as [r|] eqn:Er; [|discriminate].
    cbn [obind] in Ed. injection Ed as Ed.
    assert (e4 = [EvResidual (s_U sc +v s_DU sc) (s_L sc + s_DL sc) true]).
    { apply (app_inv_head (s_log sc)). rewrite <- G4, <- Ed. reflexivity. }
    subst e4. unfold se, computeResidualNorms. rewrite Hi'. destruct i; [lia|].
    rewrite <- Ed in *. cbn. auto. }
  match type of H with obind ?x _ = _ => destruct x as [[] sf|] eqn:Ef; [|discriminate] end. cbn [obind] in H.
  assert (Lf : logs p o 0 se (if o_verbose o then stepOutput p o se else Ret tt se)).
  { destruct (o_verbose o); [apply log_stability; auto|apply logs_ret; auto]. }
  destruct (logs_ok _ _ _ _ _ Lf Ef) as (e6 & G6 & N6 & J6).
  assert (Kf : keep4 sf = keep4 se /\ keepR sf = keepR se).
  { destruct (o_verbose o); [|injection Ef as <-; auto]. split; [eapply keepOk; [apply stepOutput_keep|exact Ef]|].
    eapply keepOk; [apply computeStability_keepR|exact Ef]. }
  destruct Kf as [Kf Kr].
  exists sa, sb, sf, (e1 ++ e2 ++ e3 ++ e4 ++ e6). destruct Re as (R1 & R2 & R3 & R4).
  split; [|split; [exact J6|split; [|split]]].
  - constructor; auto; try congruence; injection Kf; injection Kr; intros; congruence.
  - rewrite G6, G5, G4, G3, G2, G1. rewrite <- !app_assoc. reflexivity.
  - rewrite !points_app, R4, !nres0_points by assumption. cbn [app].
    injection Kf. injection Ke. injection Kb. intros.
    replace (s_U s) with (s_U se) by (subst s0; cbn in *; congruence).
    replace (s_L s) with (s_L se) by (subst s0; cbn in *; congruence). congruence.
  - destruct (convergedTest o sf) eqn:Et; [exact H|].
    destruct n as [|n]; [discriminate|]. split; [discriminate|exact H].
Qed.

Lemma finished_UL k s s' : finished o k s s' -> s_U s' = s_U s +v s_DU s /\ s_L s' = s_L s + s_DL s /\ s_conv s' = true /\
  s_Uprev s' = s_U s /\ s_Lprev s' = s_L s /\ s_guess s' = s_guess s /\ s_phi s' = s_phi s /\ s_stab s' = s_stab s /\
  s_stabPrev s' = s_stabPrev s /\ s_numIt s' = s_numIt s /\ s_lenPrev s' = s_len s /\
  s_lenOri s' = s_lenOri s /\ s_adaptive s' = s_adaptive s /\ s_desired s' = s_desired s /\ s_initialized s' = s_initialized s /\
  s_len s' = (if s_adaptive s then
    let f := IZR (Z.quot (s_desired s) (Z.of_nat (s_numIt s))) in
    s_len s * (if Rltb f (1/2) then 1/2 else if Rltb 2 f then 2 else f) else s_len s).
Proof.
  unfold finished. cbv zeta. intros H. set (s7 := iterationFinish o k s) in *.
  assert (E : s_U s7 = s_U s +v s_DU s /\ s_L s7 = s_L s + s_DL s /\ s_conv s7 = true /\
    s_Uprev s7 = s_U s /\ s_Lprev s7 = s_L s /\ s_guess s7 = s_guess s /\ s_phi s7 = s_phi s /\ s_stab s7 = s_stab s /\
    s_stabPrev s7 = s_stabPrev s /\ s_numIt s7 = s_numIt s /\ s_len s7 = s_len s /\ 
    s_lenOri s7 = s_lenOri s /\ s_adaptive s7 = s_adaptive s /\ s_desired s7 = s_desired s /\ s_initialized s7 = s_initialized s).
  { unfold s7, iterationFinish. destruct k; cbn; repeat (split; [reflexivity|]); try reflexivity;
    destruct (o_angle o); cbn; repeat (split; [reflexivity|]); reflexivity. }
  clearbody s7. destruct E as (E1 & E2 & E3 & E4 & E5 & E6 & E7 & E8 & E9 & E10 & E11 & E12 & E13 & E14 & E15).
  rewrite E13 in H. destruct (s_adaptive s).
  - unfold computeLength in H. destruct (Nat.eqb _ _); [discriminate|]. cbv zeta in H. injection H as <-. cbn.
    rewrite <- E14, <- E10, <- E11. do 15 (split; [congruence|]). reflexivity.
  - injection H as <-. cbn. do 15 (split; [congruence|]). congruence.
Qed.

Lemma last_cons {A} (x : A) l d : last (x :: l) d = last l x.
Proof. revert x d. induction l as [|y l IH]; intros x d; [reflexivity|]. change (last (x :: y :: l) d) with (last (y :: l) d). rewrite !IH. reflexivity. Qed.
(** all passes *)
Lemma loop_points k : forall n i s s', (1 <= i)%nat -> jacOK p s -> stepLoop p o k n i s = Ret tt s' -> n <> 0%nat ->
  exists evs pts r, s_log s' = s_log s ++ evs /\ points evs = pts ++ [(s_U s', s_L s')] /\
    p_residual p (s_U s') (s_L s') = Some r /\
    oltb (rdiv (norm r) (s_basF s)) (o_tolF o) = true /\
    oltb (rdiv (norm (s_U s' -v fst (last pts (s_U s +v s_DU s, s_L s + s_DL s)))) (s_basU s)) (o_tolU o) = true.
Proof.
  induction n as [|n IH]; intros i s s' Hi J H Hn; [contradiction|].
  destruct (pass_points _ _ _ _ _ Hi J H) as (sI & sJ & s1 & evs & P & J1 & G & Pt & F). clear H.
  pose proof (pass_keep3 _ _ _ _ _ _ _ P) as K3.
  assert (KB : s_basF s1 = s_basF s /\ s_basU s1 = s_basU s /\ s_U s1 = s_U s /\ s_L s1 = s_L s).
  { injection K3. intros. cbn in *. repeat split; congruence. }
  destruct KB as (B1 & B2 & B3 & B4).
  destruct (convergedTest o s1) eqn:Et.
  - pose proof (finish_log _ _ _ _ F) as GL. destruct (finished_UL _ _ _ F) as (U' & L' & _).
    destruct P as [Q1 Q2 Q3 Q4 Q5 Q6]. exists evs, [], (s_resVec s1). split; [congruence|].
    rewrite Pt, U', L', B3, B4. cbn [app last fst]. split; [reflexivity|]. rewrite <- B3, <- B4. split; [exact Q4|].
    unfold convergedTest in Et. apply andb_true_iff in Et. destruct Et as [T1 T2]. rewrite Q5 in T1. rewrite Q6 in T2.
    rewrite <- B1. split; [exact T1|]. rewrite <- B2.
    replace (s_U s1 +v s_DU s1 -v (s_U s1 +v s_DU s)) with (s_dU s1); [exact T2|].
    apply iteration_increment in Q1. injection Q2. injection Q3. intros. cbn in *.
    replace (s_DU s1) with (s_DU s +v s_dU s1) by congruence. vring.
  - destruct F as [Hn' F]. destruct (IH (Datatypes.S i) s1 s' ltac:(lia) J1 F Hn') as (ev2 & pts & r & G2 & P2 & R2 & T1 & T2).
    exists (evs ++ ev2), ((s_U s +v s_DU s1, s_L s + s_DL s1) :: pts), r.
    split; [rewrite G2, G, app_assoc; reflexivity|]. rewrite points_app, Pt, P2. split; [reflexivity|].
    split; [exact R2|]. rewrite <- B1, <- B2. split; [exact T1|].
    rewrite last_cons, <- B3, <- B4. exact T2.
Qed.

(** a whole step: the first point is the predictor, the last one the new solution *)
Lemma step_points k s s' : step_ p o k s = Ret tt s' -> (2 <= o_maxIt o)%nat ->
  exists evs u0 l0 pts r, s_log s' = s_log s ++ evs /\ points evs = (u0, l0) :: pts ++ [(s_U s', s_L s')] /\
    p_residual p (s_U s') (s_L s') = Some r /\
    oltb (rdiv (norm r) (norm (l0 *v p_F p))) (o_tolF o) = true /\
    oltb (rdiv (norm (s_U s' -v fst (last pts (u0, l0)))) (norm (u0 -v s_U s))) (o_tolU o) = true.
Proof.
  intros H Hm. unfold step_ in H. destruct (s_initialized s) eqn:Hi; [|discriminate]. cbn [negb] in H. fold (started k s) in H.
  set (s0 := started k s) in *. assert (K0 : keep1 s0 = keep1 s) by apply started_keep1.
  destruct (predict p o k s0) as [[] sP|] eqn:EP; [|discriminate]. cbn [obind] in H.
  assert (KP : keep2 sP = keep2 s0) by (eapply keepOk; [apply predict_keep|exact EP]).
  destruct (logs_ok _ _ _ _ _ (log_predict p o k s0) EP) as (e1 & G1 & N1 & J1).
  assert (HP : s_numIt sP = 0%nat /\ s_L sP = s_L s /\ s_U sP = s_U s /\ s_log s0 = s_log s).
  { assert (N0 : s_numIt s0 = 0%nat /\ s_log s0 = s_log s) by (destruct k; split; reflexivity).
    injection KP. injection K0. intros. repeat split; destruct N0; congruence. }
  destruct HP as (HN & HL & HU & HG).
  destruct (computeResidual p sP) as [[] sR|] eqn:ER; [|discriminate]. cbn [obind] in H.
  assert (KR : keep4 sR = keep4 sP) by (eapply keepOk; [apply computeResidual_keep|exact ER]).
  destruct (logs_ok _ _ _ _ _ (log_residual p o sP J1) ER) as (e2 & G2 & N2 & J2).
  assert (P2 : points e2 = [(s_U s +v s_DU sP, s_L s + s_DL sP)]).
  { unfold computeResidual, computeResidualAt in ER. destruct (p_residual p _ _) as [r|] eqn:Er; [|discriminate].
    cbn [obind] in ER. injection ER as ER.
    assert (e2 = [EvResidual (s_U sP +v s_DU sP) (s_L sP + s_DL sP) true]).
    { apply (app_inv_head (s_log sP)). rewrite <- G2, <- ER. reflexivity. }
    subst e2. cbn. rewrite HU, HL. reflexivity. }
  set (sN := computeResidualNorms p sR) in *. destruct (norms_log p sR) as (G3 & A2 & A3 & _). fold sN in G3, A2, A3.
  assert (J3 : jacOK p sN) by (apply (jacOK_ext p sR); auto).
  assert (BN : s_basF sN = norm ((s_L s + s_DL sP) *v p_F p) /\ s_basU sN = norm (s_DU sP) /\
     s_U sN = s_U s /\ s_L sN = s_L s /\ s_DU sN = s_DU sP /\ s_DL sN = s_DL sP).
  { injection KR. intros. unfold sN, computeResidualNorms. replace (s_numIt sR) with 0%nat by congruence. cbn [Nat.eqb]. cbn.
    rewrite <- HL, <- HU. repeat split; congruence. }
  destruct BN as (B1 & B2 & B3 & B4 & B5 & B6).
  match type of H with obind ?x _ = _ => destruct x as [[] sV|] eqn:EV; [|discriminate] end. cbn [obind] in H.
  assert (LV : logs p o 0 sN (if o_verbose o then stepOutput p o sN else Ret tt sN)).
  { destruct (o_verbose o); [apply log_stability; auto|apply logs_ret; auto]. }
  destruct (logs_ok _ _ _ _ _ LV EV) as (e4 & G4 & N4 & J4).
  assert (KV : keep4 sV = keep4 sN).
  { destruct (o_verbose o); [|congruence]. eapply keepOk; [apply stepOutput_keep|exact EV]. }
  match type of H with obind ?x _ = _ => destruct x as [[] sQ|] eqn:EQ; [|discriminate] end. cbn [obind] in H.
  assert (LQ : logs p o 0 sV (if o_quasi o then quasiNewtonPredictor p k sV else Ret tt sV)).
  { destruct (o_quasi o); [apply log_quasiPredictor|apply logs_ret; auto]. }
  destruct (logs_ok _ _ _ _ _ LQ EQ) as (e5 & G5 & N5 & J5).
  assert (KQ : keep4 sQ = keep4 sN).
  { rewrite <- KV. destruct (o_quasi o); [|congruence]. eapply keepOk; [apply quasiNewtonPredictor_keep|exact EQ]. }
  set (sT := set_stabPrev (s_stab sQ) sQ) in *. assert (JT : jacOK p sT) by (apply (jacOK_ext p sQ); auto).
  assert (HT : s_basF sT = s_basF sN /\ s_basU sT = s_basU sN /\ s_U sT = s_U sN /\ s_L sT = s_L sN /\ s_DU sT = s_DU sN /\ s_DL sT = s_DL sN).
  { injection KQ. intros. unfold sT. cbn. repeat split; congruence. }
  destruct HT as (T1 & T2 & T3 & T4 & T5 & T6).
  destruct (loop_points k (o_maxIt o - 1) 1 sT s' ltac:(lia) JT H ltac:(lia)) as (e6 & pts & r & G6 & P6 & R6 & C1 & C2).
  exists (e1 ++ e2 ++ e4 ++ e5 ++ e6), (s_U s +v s_DU sP), (s_L s + s_DL sP), pts, r.
  split; [|split; [|split; [exact R6|split]]].
  - rewrite G6. change (s_log sT) with (s_log sQ). rewrite G5, G4, G3, G2, G1, HG. rewrite <- !app_assoc. reflexivity.
  - rewrite !points_app, P2, P6, (nres0_points e1), (nres0_points e4), (nres0_points e5) by assumption. reflexivity.
  - rewrite <- B1, <- T1. exact C1.
  - replace (s_U s +v s_DU sP -v s_U s) with (s_DU sP) by vring. rewrite <- B2, <- T2, <- B3, <- B4, <- B5, <- B6, <- T3, <- T4, <- T5, <- T6.
    exact C2.
Qed.
End Points.
