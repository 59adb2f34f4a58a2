(** What a whole step() does: specification of _step, evaluations made, states that the
    stability computation does not influence. *)
From Verif Require Import VS Status ALMBase ALMBaseProofs.
Local Open Scope R_scope.

Section Step.
Context {S : VS} {Mat : Type}.
Notation st := (st S Mat).
Notation event := (event S Mat).
Variable p : problem S Mat.
Variable o : opts.
Implicit Types s : st.

(** the state in which the predictor starts *)
Definition started k s : st := initiateStep k (set_numIt 0 (set_conv false s)).
Lemma started_keep1 k s : keep1 (started k s) = keep1 s.
Proof. destruct k; reflexivity. Qed.
Lemma started_guess k s : s_guess (started k s) = s_guess s.
Proof. destruct k; reflexivity. Qed.

(** [sP] after the predictor, [s2] before the loop *)
Record predicted k s sP s2 : Prop := {
  pr_pred : predict p o k (started k s) = Ret tt sP;
  pr_keep1 : keep1 s2 = keep1 s;
  pr_conv : s_conv s2 = false;
  pr_basF : s_basF s2 = norm ((s_L s + s_DL sP) *v p_F p);
  pr_basU : s_basU s2 = norm (s_DU sP);
  pr_inc : (s_DU s2, s_DL s2, s_dU s2, s_dL s2, s_DUold s2, s_DLold s2, s_guess s2, s_phi s2) =
           (s_DU sP, s_DL sP, s_dU sP, s_dL sP, s_DUold sP, s_DLold sP, s_guess sP, s_phi sP)
}.

Lemma step_spec k s : s_initialized s = true ->
  (exists e s', step_ p o k s = Exc e s' /\ keep1 s' = keep1 s) \/
  (exists sP s2, predicted k s sP s2 /\ step_ p o k s = stepLoop p o k (o_maxIt o - 1) 1 s2).
Proof.
  intros Hi. unfold step_. rewrite Hi. cbn [negb]. fold (started k s). set (s0 := started k s).
  assert (K0 : keep1 s0 = keep1 s) by apply started_keep1.
  destruct (predict p o k s0) as [[] sP|e sP] eqn:EP; cbn [obind].
  2:{ left. exists e, sP. split; auto. rewrite <- K0. apply keep21. eapply keepExc; [apply predict_keep|exact EP]. }
  assert (KP : keep2 sP = keep2 s0) by (eapply keepOk; [apply predict_keep|exact EP]).
  assert (HP : s_numIt sP = 0%nat /\ s_L sP = s_L s /\ s_conv sP = false).
  { assert (N0 : s_numIt s0 = 0%nat /\ s_conv s0 = false) by (destruct k; split; reflexivity).
    injection KP. injection K0. intros. repeat split; destruct N0; congruence. }
  destruct HP as (HN & HL & HC).
  destruct (computeResidual p sP) as [[] sR|e sR] eqn:ER; cbn [obind].
  2:{ left. exists e, sR. split; auto. rewrite <- K0. apply keep21. rewrite <- KP. apply keep32, keep43.
      eapply keepExc; [apply computeResidual_keep|exact ER]. }
  assert (KR : keep4 sR = keep4 sP) by (eapply keepOk; [apply computeResidual_keep|exact ER]).
  set (sN := computeResidualNorms p sR).
  assert (KN : keep1 sN = keep1 s).
  { unfold sN. rewrite norms_keep1, <- K0. apply keep21. rewrite <- KP. apply keep32, keep43. exact KR. }
  assert (BN : s_basF sN = norm ((s_L s + s_DL sP) *v p_F p) /\ s_basU sN = norm (s_DU sP) /\
    (s_DU sN, s_DL sN, s_dU sN, s_dL sN, s_DUold sN, s_DLold sN, s_guess sN, s_phi sN) =
    (s_DU sP, s_DL sP, s_dU sP, s_dL sP, s_DUold sP, s_DLold sP, s_guess sP, s_phi sP) /\ s_conv sN = false).
  { injection KR. intros. unfold sN, computeResidualNorms. replace (s_numIt sR) with 0%nat by congruence. cbn [Nat.eqb]. cbn.
    rewrite <- HL. repeat split; congruence. }
  destruct BN as (B1 & B2 & B3 & B4).
  match goal with |- context [obind ?x _] => destruct x as [[] sV|e sV] eqn:EV; cbn [obind] end.
  2:{ left. exists e, sV. split; auto. rewrite <- KN. apply keep21, keep32, keep43.
      destruct (o_verbose o); [|discriminate]. eapply keepExc; [apply stepOutput_keep|exact EV]. }
  assert (KV : keep4 sV = keep4 sN).
  { destruct (o_verbose o); [|congruence]. eapply keepOk; [apply stepOutput_keep|exact EV]. }
  match goal with |- context [obind ?x _] => destruct x as [[] sQ|e sQ] eqn:EQ; cbn [obind] end.
  2:{ left. exists e, sQ. split; auto. rewrite <- KN. apply keep21, keep32, keep43. rewrite <- KV.
      destruct (o_quasi o); [|discriminate]. eapply keepExc; [apply quasiNewtonPredictor_keep|exact EQ]. }
  assert (KQ : keep4 sQ = keep4 sN).
  { rewrite <- KV. destruct (o_quasi o); [|congruence]. eapply keepOk; [apply quasiNewtonPredictor_keep|exact EQ]. }
  right. exists sP, (set_stabPrev (s_stab sQ) sQ). split; [|reflexivity]. injection KQ. injection KN. injection B3. intros.
  constructor; auto.
  - unfold keep1. cbn. congruence.
  - cbn. congruence.
  - cbn. congruence.
  - cbn. congruence.
  - cbn. congruence.
Qed.

(** A step that returns normally: either MaxIter <= 1 and no iteration is made, or the last
    pass of the loop is [pass] from [sI] over [sJ] to [s1], and the step ends in [s']. *)
Record converged k s sP sI sJ s1 s' : Prop := {
  cv_pred : predict p o k (started k s) = Ret tt sP;
  cv_iter : iteration p o k sI = Ret tt sJ;
  cv_sI : keep1 sI = keep1 s /\ s_phi sI = s_phi sP /\ s_guess sI = s_guess sP;
  cv_s1 : keep4 s1 = keep4 sJ;
  cv_numIt : (1 <= s_numIt s1 < o_maxIt o)%nat;
  cv_res : p_residual p (s_U s +v s_DU s1) (s_L s + s_DL s1) = Some (s_resVec s1);
  cv_resF : exists f, rdiv (norm (s_resVec s1)) (norm ((s_L s + s_DL sP) *v p_F p)) = Some f /\ f < o_tolF o;
  cv_resU : exists u, rdiv (norm (s_dU s1)) (norm (s_DU sP)) = Some u /\ u < o_tolU o;
  cv_fin : finished o k s1 s'
}.
Lemma step_success k s s' : step_ p o k s = Ret tt s' ->
  s_initialized s = true /\
  (((o_maxIt o <= 1)%nat /\ keep1 s' = keep1 s /\ s_conv s' = false) \/
   ((2 <= o_maxIt o)%nat /\ exists sP sI sJ s1, converged k s sP sI sJ s1 s')).
Proof.
  intros H. destruct (s_initialized s) eqn:Hi; [|unfold step_ in H; rewrite Hi in H; discriminate].
  split; [reflexivity|]. destruct (step_spec k s Hi) as [(e & s'' & E & _)|(sP & s2 & P & E)]; [congruence|].
  rewrite E in H. clear E. pose proof (stepLoop_spec p o k (o_maxIt o - 1) 1 s2 ltac:(lia)) as L. rewrite H in L.
  destruct P as [P1 P2 P2' P3 P4 P5].
  destruct L as [[Hn ->]|(s0 & sI & sJ & s1 & A1 & A2 & A3 & A4 & A5 & A6 & A7 & A8 & A9 & A10)].
  - left. split; [lia|]. split; [exact P2|exact P2'].
  - right. split; [lia|]. exists sP, sI, sJ, s1. pose proof (pass_keep3 _ _ _ _ _ _ _ A8) as K3.
    destruct A8 as [Q1 Q2 Q3 Q4 Q5 Q6]. unfold convergedTest in A9. apply andb_true_iff in A9. destruct A9 as [A9 A9'].
    injection K3. injection P2. injection P5. injection A1. intros. constructor; auto.
    + injection Q2. intros. unfold keep1. repeat split; congruence.
    + replace (s_numIt s1) with (s_numIt s0) by congruence. lia.
    + replace (s_U s) with (s_U s1) by congruence. replace (s_L s) with (s_L s1) by congruence. exact Q4.
    + replace (norm ((s_L s + s_DL sP) *v p_F p)) with (s_basF s1) by congruence. rewrite <- Q5.
      unfold oltb in A9. destruct (s_resF s1) as [f|]; [|discriminate]. exists f. split; auto. apply Rltb_true. auto.
    + replace (norm (s_DU sP)) with (s_basU s1) by congruence. rewrite <- Q6.
      unfold oltb in A9'. destruct (s_resU s1) as [f|]; [|discriminate]. exists f. split; auto. apply Rltb_true. auto.
Qed.
End Step.
