(** Properties of dynamic relaxation, the optimisation solver, the composite solver and
    displacement control: C42-C47. *)
From Verif Require Import VS Status RunTac Static StaticRun Props_Static.
Local Open Scope R_scope.

(** ** C42 *)
Section Energy.
Context {S : VS}.
Variable p : gprob S.
Hypothesis massPos : forall v, 0 <= dot v (gp_mass p v).
Implicit Types s : gst S.
Definition energyOk s : Prop := 0 <= g_Ek s /\ Forall (fun e => 0 <= e) (g_Eks s).
Lemma start_energy s : energyOk s -> energyOk (stateOf (drStart p s)).
Proof.
  intros H. unfold drStart. destruct (g_head s); unfold drResidual; cbn;
  repeat (match goal with |- context [match gp_res p ?l ?u with _ => _ end] => destruct (gp_res p l u) end; cbn); try exact H;
  (split; [apply massPos|apply H]).
Qed.
Lemma iteration_energy s : energyOk s -> energyOk (stateOf (drIteration p s)).
Proof.
  intros H. unfold drIteration, drResidual, damping. destruct (gp_res p (g_L s) (g_U s +v g_DU s)); cbn; try exact H.
  destruct (g_damp s); cbn; [|exact H]. split; [apply massPos|apply H].
Qed.
Lemma peak_energy s : energyOk s -> energyOk (stateOf (drPeak p s)).
Proof.
  intros H. unfold drPeak, drResidual, damping. destruct (gp_res p (g_L s) (g_U s +v g_DU s)); cbn; try exact H.
  destruct (g_damp s); cbn; [|exact H]. split; [apply Rle_refl|apply H].
Qed.
Lemma pass_energy o k s : energyOk s -> energyOk (stateOf (drPass p o k s)).
Proof.
  intros H. unfold drPass. pose proof (iteration_energy s H) as H1. destruct (drIteration p s) as [[] s1|]; cbn in *; [|exact H1].
  destruct (_ || _); [|exact H1]. pose proof (peak_energy s1 H1) as H2. destruct (drPeak p s1) as [[] s2|]; exact H2.
Qed.
Lemma loop_energy o : forall n i k s, energyOk s -> energyOk (stateOf (drLoop p o n i k s)).
Proof.
  induction n as [|n IH]; intros i k s H; cbn [drLoop]; [exact H|].
  pose proof (pass_energy o k (drSetIt i s) H) as H1. destruct (drPass p o k (drSetIt i s)) as [k' s1|]; cbn [rbind]; [|exact H1].
  cbv zeta. assert (H2 : energyOk (drPush (g_Ek0 s1) (g_Eks s1 ++ [g_Ek s1]) s1)).
  { destruct H1 as [H1 H3]. split; [exact H1|]. cbn. apply Forall_app. auto. }
  destruct (drTest o _); [exact H2|]. destruct n; [exact H2|]. apply IH. exact H2.
Qed.
End Energy.
(** Nonnegative mass: kineticEnergy() and all energies() of a run are nonnegative, however it
    ends. *)
Theorem C42_energy {S : VS} (p : gprob S) s :
  (forall v, 0 <= dot v (gp_mass p v)) -> 0 <= g_Ek s -> Forall (fun e => 0 <= e) (g_Eks s) ->
  0 <= g_Ek (stateOf (drSolve p s)) /\ Forall (fun e => 0 <= e) (g_Eks (stateOf (drSolve p s))).
Proof.
  intros M H1 H2. change (energyOk (stateOf (drSolve p s))). unfold drSolve. destruct (g_opts s) as [o|]; [|split; assumption].
  assert (H3 : energyOk (drPush (g_Ek0 s) [] s)) by (split; [exact H1|constructor]).
  pose proof (start_energy p M _ H3) as H4. destruct (drStart p (drPush (g_Ek0 s) [] s)) as [[] s1|]; cbn [rbind]; [|exact H4].
  cbv zeta. assert (H5 : energyOk (drPush (g_Ek s1) (g_Eks s1 ++ [g_Ek s1]) s1)).
  { destruct H4 as [H4 H6]. split; [exact H4|]. cbn. apply Forall_app. auto. }
  pose proof (loop_energy p M o (go_maxIt o - 1) 1 0%Z _ H5) as H6. destruct (drLoop _ _ _ _ _ _) as [[] s2|]; exact H6.
Qed.
Print Assumptions C42_energy.
(** After a kinetic peak the velocity and the kinetic energy are zero, and the displacement is the
    one half a step back from the last iterate, corrected by the acceleration there. *)
Theorem C42_peak {S : VS} (p : gprob S) s s' :
  drPeak p s = Done tt s' -> g_V s' = v0 /\ g_Ek s' = 0 /\ g_U s' = g_U s /\
    exists f c, gp_res p (g_L s) (g_U s +v g_DU s) = Yes f /\ g_damp s = Some c /\
      g_DU s' = g_DU s -v (3/2) *v g_V s +v (g_scale s / 2) *v gp_minv p (f -v c *v gp_mass p (g_V s)).
Proof.
  unfold drPeak, drResidual, damping, massInv, dt. destruct (gp_res p (g_L s) (g_U s +v g_DU s)) as [f| |]; cbn; try discriminate.
  destruct (g_damp s) as [c|]; cbn; [|discriminate]. intros H. apply (f_equal stateOf) in H. cbn in H. subst s'. cbn.
  do 3 (split; [reflexivity|]). exists f, c. do 2 (split; [reflexivity|]). vfield.
Qed.
Print Assumptions C42_peak.
(** At rest, an iteration leaves the displacement where it is exactly at an equilibrium; then the
    velocity stays zero. *)
Theorem C42_rest {S : VS} (p : gprob S) s f c :
  linear (gp_mass p) -> (forall x, gp_minv p x = v0 <-> x = v0) ->
  g_V s = v0 -> g_scale s <> 0 -> g_damp s = Some c -> gp_res p (g_L s) (g_U s +v g_DU s) = Yes f ->
  exists s', drIteration p s = Done tt s' /\ (g_U s' +v g_DU s' = g_U s +v g_DU s <-> f = v0) /\ (f = v0 -> g_V s' = v0 /\ g_Ek s' = 0).
Proof.
  intros LM MI HV Hs Hc Hf. unfold drIteration, drResidual, damping. rewrite Hf. cbn. rewrite Hc. eexists. split; [reflexivity|]. cbn.
  rewrite HV, (lin_0 LM). assert (E : forall x : S, massInv p s x = v0 <-> x = v0).
  { intros x. unfold massInv. rewrite <- (MI x). split; intros H; [|rewrite H; vring].
    replace (gp_minv p x) with ((1 / g_scale s) *v (g_scale s *v gp_minv p x)) by (vfield; exact Hs). rewrite H. vring. }
  replace (f -v c *v v0) with f by vring. unfold dt. split.
  - split; intros H.
    + apply E. replace (massInv p s f) with ((g_U s +v (g_DU s +v 1 *v (v0 +v 1 *v massInv p s f))) -v (g_U s +v g_DU s)) by vring. rewrite H. vring.
    + apply E in H. rewrite H. vring.
  - intros H. apply E in H. rewrite H. split; [vring|]. unfold kinetic. replace (v0 +v 1 *v v0) with (v0 : S) by vring. apply dot_0_l.
Qed.
Print Assumptions C42_rest.
(** one unknown, mass 1: the force is 1 below 1/4, 1/4 up to 3/4 and then 100 *)
Definition exDR : gprob VS_R := @mkGProb VS_R (fun v => v) (fun v => v) 1
  (fun l u => if Rltb u (-10) then No else if Rltb u (1/4) then Yes 1 else if Rltb u (3/4) then Yes (1/4) else Yes 100).
Definition exGO (tolF : R) (n : nat) (c a : R) : gopts := mkGOpts tolF 1 2 n c a (-1).
Example C42_example : exists s, drSolve exDR (drInitialize (exGO (1/10) 5 (1/2) 1) drNew) = Done Success s /\ g_Eks s = [1/4; 1/4] /\
  (exists s', drPeak exDR s = Done tt s') /\ (forall v : VS_R, 0 <= dot v (gp_mass exDR v)).
Proof.
  eexists. split; [sev|]. split; [rcbv; reflexivity|]. split; [eexists; sev|]. intros v. cbn. nra.
Qed.

(** ** C43 *)
Section DRSuccess.
Context {S : VS}.
Variable p : gprob S.
Variable o : gopts.
Implicit Types s : gst S.
(** members that the loop leaves alone *)
Definition drKeep s := (g_U s, g_L s, g_damp s, g_scale s, g_Ek0 s, g_opts s).
(** the measured residual is the one at (u, v) *)
Definition measured s : Prop := exists u v f c, g_damp s = Some c /\ gp_res p (g_L s) u = Yes f /\ g_rnorm s = norm (f -v c *v gp_mass p v) /\
  (go_damping o <> 0 -> go_resetIt o = (-1)%Z -> g_U s +v g_DU s = u +v g_dU s).
Lemma pass_ok k s k' s' : (0 <= k)%Z -> g_ini s <> 0 -> drPass p o k s = Done k' s' ->
  drKeep s' = drKeep s /\ g_ini s' = g_ini s /\ measured s' /\ (0 <= k')%Z.
Proof.
  intros Hk Hi. unfold drPass, drIteration, drResidual, damping. destruct (gp_res p (g_L s) (g_U s +v g_DU s)) as [f| |] eqn:E1; cbn; try discriminate.
  destruct (g_damp s) as [c|] eqn:E2; cbn; [|discriminate]. rewrite (proj2 (Reqb_false _ _) Hi).
  set (s1 := mkG _ _ _ _ _ _ _ _ _ _ _ _ _ _ _ _ _ _).
  destruct (_ || _) eqn:E3.
  - unfold drPeak, drResidual, damping. cbn [g_L s1 g_U g_DU].
    destruct (gp_res p (g_L s) (g_U s +v (g_DU s +v dt *v (g_V s +v dt *v massInv p s (f -v c *v gp_mass p (g_V s)))))) as [f2| |]; cbn; try discriminate.
    intros H. pose proof (f_equal stateOf H) as H1. cbn in H1. assert (k' = 0%Z) by congruence. subst s' k'.
    unfold drKeep, measured. cbn. repeat split; [congruence| |lia].
    exists (g_U s +v g_DU s), (g_V s), f, c. do 3 (split; [first [assumption|reflexivity]|]). intros Hd Hr. exfalso.
    apply orb_true_iff in E3. destruct E3 as [E3|E3].
    + apply andb_true_iff in E3. destruct E3 as [E3 _]. apply Reqb_true in E3. contradiction.
    + apply Z.eqb_eq in E3. lia.
  - intros H. pose proof (f_equal stateOf H) as H1. cbn in H1. assert (k' = k) by congruence. subst s' k'.
    unfold drKeep, measured. cbn. repeat split; [congruence| |lia].
    exists (g_U s +v g_DU s), (g_V s), f, c. do 3 (split; [first [assumption|reflexivity]|]). intros _ _. vring.
Qed.
Lemma drLoop_ok : forall n i k s s', n <> O -> (0 <= k)%Z -> g_ini s <> 0 -> drLoop p o n i k s = Done tt s' ->
  g_U s' = g_U s +v g_DU s' /\ g_L s' = g_L s /\ g_damp s' = g_damp s /\ g_Ek0 s' = g_Ek0 s /\ g_ini s' = g_ini s /\ drTest o s' = true /\
  exists u v f c, g_damp s = Some c /\ gp_res p (g_L s) u = Yes f /\ g_rnorm s' = norm (f -v c *v gp_mass p v) /\
    (go_damping o <> 0 -> go_resetIt o = (-1)%Z -> g_U s' = u +v g_dU s').
Proof.
  induction n as [|n IH]; intros i k s s' Hn Hk Hi H; [contradiction|]. cbn [drLoop] in H.
  destruct (drPass p o k (drSetIt i s)) as [k' s1|] eqn:E1; cbn [rbind] in H; [|discriminate].
  destruct (pass_ok k (drSetIt i s) k' s1 Hk Hi E1) as (K & I1 & M1 & Hk'). unfold drKeep in K. cbn in K, I1.
  assert (K1 : g_U s1 = g_U s /\ g_L s1 = g_L s /\ g_damp s1 = g_damp s /\ g_Ek0 s1 = g_Ek0 s) by (repeat split; congruence).
  destruct K1 as (K1 & K2 & K3 & K4). cbv zeta in H. set (s2 := drPush _ _ _) in H. destruct (drTest o s2) eqn:Et.
  - apply (f_equal stateOf) in H. cbn [stateOf] in H. subst s'. cbn. rewrite K1, K2, K3, K4, I1. repeat split; [exact Et|].
    destruct M1 as (u & v & f & c & M1 & M2 & M3 & M4). exists u, v, f, c. rewrite <- K3, <- K2, <- K1. auto.
  - destruct n as [|n]; [discriminate|].
    assert (I2 : g_ini s2 <> 0) by (cbn; rewrite I1; exact Hi).
    destruct (IH _ _ _ _ (Nat.neq_succ_0 n) (Z.add_nonneg_nonneg _ _ Hk' Z.le_0_1) I2 H) as (Q1 & Q2 & Q3 & Q4 & Q5 & Q6 & Q7).
    cbn in Q1, Q2, Q3, Q4, Q5, Q7. rewrite K1 in Q1. rewrite K2 in Q2, Q7. rewrite K3 in Q3, Q7. rewrite K4 in Q4. rewrite I1 in Q5. auto 10.
Qed.
Lemma drStart_ok s s' : drStart p s = Done tt s' -> g_U s' = g_U s /\ g_L s' = g_L s /\ g_damp s' = g_damp s /\
  (if g_head s then exists r0, gp_res p (g_L s) (g_U s) = Yes r0 /\ g_ini s' = orOne (norm r0) else g_ini s' = orOne (norm (gp_force p))) /\
  exists v, g_Ek s' = dot v (gp_mass p v).
Proof.
  unfold drStart, drResidual. destruct (g_head s) eqn:E; cbn.
  - destruct (gp_res p (g_L s) (g_U s +v g_DU s)); cbn; try discriminate. destruct (gp_res p (g_L s) (g_U s)) eqn:E2; cbn; try discriminate.
    intros H. apply (f_equal stateOf) in H. cbn in H. subst s'. cbn. repeat split; [eauto|]. eexists; reflexivity.
  - destruct (gp_res p (g_L s) (g_U s)); cbn; try discriminate.
    intros H. apply (f_equal stateOf) in H. cbn in H. subst s'. cbn. repeat split. eexists; reflexivity.
Qed.
End DRSuccess.
(** [solve] returned (at least one iteration allowed): it answered Success, solution() is the start
    plus update(), the kinetic energy is below TolE times the first one and the last increment
    below TolU times update(); the residual less the damping force, measured before the last
    increment, is below TolF times the reference. Missing: the residual at solution(), and
    reporting failures by the status. *)
Theorem C43_success_partial {S : VS} (p : gprob S) o s s' q :
  (forall v, 0 <= dot v (gp_mass p v)) -> g_opts s = Some o -> (2 <= go_maxIt o)%nat -> drSolve p s = Done q s' ->
  q = Success /\ g_stat s' = Success /\ g_U s' = g_U s +v g_DU s' /\ 
  (exists ini u v f c, (if g_head s then exists r0, gp_res p (g_L s) (g_U s) = Yes r0 /\ ini = orOne (norm r0) else ini = orOne (norm (gp_force p))) /\
    g_damp s = Some c /\ gp_res p (g_L s) u = Yes f /\ norm (f -v c *v gp_mass p v) < go_tolF o * ini /\
    (go_damping o <> 0 -> go_resetIt o = (-1)%Z -> g_U s' = u +v g_dU s')) /\
  (0 <= g_Ek s' -> g_Ek s' < go_tolE o * g_Ek0 s') /\ norm (g_dU s') < go_tolU o * norm (g_DU s').
Proof.
  intros MP Ho Hm H. unfold drSolve in H. rewrite Ho in H.
  destruct (drStart p (drPush (g_Ek0 s) [] s)) as [[] s1|] eqn:E1; cbn [rbind] in H; [|discriminate].
  destruct (drStart_ok _ _ _ E1) as (K1 & K2 & K3 & K4 & (v0' & K5)). cbn in K1, K2, K3, K4. cbv zeta in H.
  set (s2 := drPush _ _ _) in H. destruct (drLoop p o (go_maxIt o - 1) 1 0 s2) as [[] s3|] eqn:E2; cbn [rbind] in H; [|discriminate].
  assert (Hz : (go_maxIt o - 1)%nat <> O) by lia.
  assert (Hi : 0 < g_ini s2).
  { cbn. destruct (g_head s); [destruct K4 as (r0 & _ & ->)|rewrite K4]; apply orOne_pos, norm_pos. }
  assert (Hi' : g_ini s2 <> 0) by lra.
  destruct (drLoop_ok p o _ _ _ _ _ Hz (Z.le_refl 0) Hi' E2) as (Q1 & Q2 & Q3 & Q4 & Q5 & Q6 & u & v & f & c & Q7 & Q8 & Q9 & Q10).
  pose proof (f_equal stateOf H) as H1. cbn [stateOf] in H1. assert (q = Success) by congruence. subst q s'. cbn.
  unfold drTest in Q6. apply andb_true_iff in Q6. destruct Q6 as [Q6 TU]. apply andb_true_iff in Q6. destruct Q6 as [TF TE].
  split; [reflexivity|]. split; [reflexivity|]. split; [rewrite Q1; cbn; rewrite K1; reflexivity|]. split.
  - exists (g_ini s3), u, v, f, c. rewrite Q5. cbn. split; [exact K4|]. cbn in Q7, Q8. rewrite K3 in Q7. rewrite K2 in Q8. do 2 (split; [assumption|]).
    split; [|exact Q10]. rewrite <- Q9. apply ratioLt_pos; [exact Hi|]. rewrite Q5 in TF. exact TF.
  - split.
    + intros HE. rewrite Q4 in *. cbn in *. unfold ratioLt in TE. destruct (Reqb (g_Ek s1) 0) eqn:E; [apply Rltb_true in TE; lra|].
      apply Reqb_false in E. pose proof (MP v0'). apply ratioLt_pos; [lra|]. unfold ratioLt. rewrite (proj2 (Reqb_false _ _) E). exact TE.
    + pose proof (norm_pos (g_DU s3)). unfold ratioLt in TU. destruct (Reqb (norm (g_DU s3)) 0) eqn:E.
      * apply Rltb_true in TU. pose proof (norm_pos (g_dU s3)). lra.
      * apply Reqb_false in E. apply ratioLt_pos; [lra|]. unfold ratioLt. rewrite (proj2 (Reqb_false _ _) E). exact TU.
Qed.
Print Assumptions C43_success_partial.
(** Success although the residual at solution() is 100 (the damping force balanced the force at the
    point before); Success without any iteration for maxIt = 1; an exception for NotConverged and
    for a failing assembly *)
Theorem C43_refuted : exists s1 s2 s3 s4 : gst VS_R,
  drSolve exDR (drInitialize (exGO (1/10) 5 (1/2) 1) drNew) = Done Success s1 /\ g_U s1 = 1 /\ gp_res exDR (g_L s1) (g_U s1) = Yes 100 /\
  drSolve exDR (drInitialize (exGO (1/10) 1 (1/2) 1) drNew) = Done Success s2 /\ g_U s2 = 0 /\ gp_res exDR (g_L s2) (g_U s2) = Yes 1 /\
  drSolve exDR (drInitialize (exGO (-1) 2 (1/2) 1) drNew) = Threw (XInt 1) s3 /\ g_stat s3 = NotStarted /\
  drSolve exDR (drSetDisplacement (-20 : VS_R) (drInitialize (exGO (1/10) 5 (1/2) 1) drNew)) = Threw (XInt 2) s4 /\ g_stat s4 = NotStarted.
Proof.
  do 4 eexists. split; [sev|]. split; [rcbv; lra|]. split; [rsimp; f_equal; lra|]. split; [sev|]. split; [rcbv; reflexivity|]. split; [rsimp; f_equal; lra|].
  split; [sev|]. split; [rcbv; reflexivity|]. split; [sev|]. rcbv. reflexivity.
Qed.
Print Assumptions C43_refuted.

(** ** C44 *)
(** With alpha = 1, reset() and initialize() lead to the same state and hence the same runs.
    Missing: other alpha. *)
Theorem C44_reset_partial {S : VS} (p : gprob S) o s0 s calls :
  go_alpha o = 1 -> s = fold_left (fun s f => f s) calls (drInitialize o s0) ->
  Forall (fun f => (exists u, f = drSetDisplacement u) \/ (exists l, f = drSetLoad l) \/ (exists u, f = drSetUpdate u) \/ f = drReset \/
     f = fun s => stateOf (drSolve p s)) calls ->
  drInitialize o s = drReset s /\ drSolve p (drInitialize o s) = drSolve p (drReset s).
Proof.
  intros Ha Hs Hc.
  assert (I : g_damp s = Some (go_damping o) /\ g_opts s = Some o).
  { subst s. assert (B : g_damp (drInitialize o s0) = Some (go_damping o) /\ g_opts (drInitialize o s0) = Some o) by (split; reflexivity).
    revert B. generalize (drInitialize o s0) as t. induction Hc as [|f l Hf _ IH]; intros t B; [exact B|]. cbn [fold_left]. apply IH.
    destruct Hf as [(u & ->)|[(u & ->)|[(u & ->)|[->| ->]]]]; try exact B.
    assert (KK : forall A (x : run (gst S) A) (y : gst S), g_damp (stateOf x) = g_damp y -> g_opts (stateOf x) = g_opts y -> g_damp y = g_damp t -> g_opts y = g_opts t ->
      g_damp (stateOf x) = Some (go_damping o) /\ g_opts (stateOf x) = Some o) by (intros; destruct B; split; congruence).
    assert (P1 : forall t, g_damp (stateOf (drStart p t)) = g_damp t /\ g_opts (stateOf (drStart p t)) = g_opts t).
    { intros t'. unfold drStart, drResidual. destruct (g_head t'); cbn; repeat (match goal with |- context [match gp_res p ?l ?u with _ => _ end] => destruct (gp_res p l u) end; cbn); auto. }
    assert (P2 : forall t, g_damp (stateOf (drIteration p t)) = g_damp t /\ g_opts (stateOf (drIteration p t)) = g_opts t).
    { intros t'. unfold drIteration, drResidual, damping. destruct (gp_res p (g_L t') (g_U t' +v g_DU t')); cbn; auto. destruct (g_damp t') eqn:E; cbn; auto. }
    assert (P3 : forall t, g_damp (stateOf (drPeak p t)) = g_damp t /\ g_opts (stateOf (drPeak p t)) = g_opts t).
    { intros t'. unfold drPeak, drResidual, damping. destruct (gp_res p (g_L t') (g_U t' +v g_DU t')); cbn; auto. destruct (g_damp t') eqn:E; cbn; auto. }
    assert (P4 : forall o' k t, g_damp (stateOf (drPass p o' k t)) = g_damp t /\ g_opts (stateOf (drPass p o' k t)) = g_opts t).
    { intros o' k t'. unfold drPass. pose proof (P2 t') as [Q1 Q2]. destruct (drIteration p t') as [[] t1|]; cbn in *; [|auto].
      destruct (_ || _); [|auto]. pose proof (P3 t1) as [Q3 Q4]. destruct (drPeak p t1) as [[] t2|]; cbn in *; split; congruence. }
    assert (P5 : forall o' n i k t, g_damp (stateOf (drLoop p o' n i k t)) = g_damp t /\ g_opts (stateOf (drLoop p o' n i k t)) = g_opts t).
    { intros o' n. induction n as [|n IHn]; intros i k t'; cbn [drLoop]; [auto|].
      pose proof (P4 o' k (drSetIt i t')) as [Q1 Q2]. destruct (drPass p o' k (drSetIt i t')) as [k' t1|]; cbn in *; [|auto].
      destruct (drTest o' _); [auto|]. destruct n; [auto|]. destruct (IHn (Datatypes.S i) (k' + 1)%Z (drPush (g_Ek0 t1) (g_Eks t1 ++ [g_Ek t1]) t1)) as [Q3 Q4].
      cbn in Q3, Q4. split; etransitivity; eauto. }
    cbv beta. unfold drSolve. destruct (g_opts t) as [o'|] eqn:Eo; [|destruct B as [B1 B2]; split; cbn; [exact B1|rewrite Eo; exact B2]].
    pose proof (P1 (drPush (g_Ek0 t) [] t)) as [Q1 Q2]. destruct (drStart p (drPush (g_Ek0 t) [] t)) as [[] t1|]; cbn [rbind stateOf] in *; [|cbn in Q1, Q2; destruct B; split; congruence].
    cbv zeta. pose proof (P5 o' (go_maxIt o' - 1)%nat 1%nat 0%Z (drPush (g_Ek t1) (g_Eks t1 ++ [g_Ek t1]) t1)) as [Q3 Q4].
    destruct (drLoop p o' _ _ _ _) as [[] t2|]; cbn in *; destruct B; split; congruence. }
  assert (E : drInitialize o s = drReset s).
  { unfold drInitialize, drReset. cbn. rewrite Ha. destruct I as [-> ->]. f_equal. field. }
  split; [exact E|]. rewrite E. reflexivity.
Qed.
Print Assumptions C44_reset_partial.
Example C44_example : exists s, drSolve exDR (drReset (stateOf (drSolve exDR (drInitialize (exGO (1/10) 5 (1/2) 1) drNew)))) = Done Success s /\ g_U s = 1.
Proof.
  eexists. split.
  - match goal with |- context [stateOf ?x] => let H := fresh in eassert (H : x = _) by sev; rewrite H; clear H end. cbn [stateOf]. sev.
  - rcbv. lra.
Qed.
(** alpha = 2 (the default): after reset() the first increment is twice the one after initialize() *)
Theorem C44_refuted : exists s1 s2 : gst VS_R,
  let s := drInitialize (exGO (1/10) 1 (1/2) 2) drNew in
  drSolve exDR (drInitialize (exGO (1/10) 1 (1/2) 2) s) = Done Success s1 /\ g_DU s1 = 1/4 /\
  drSolve exDR (drReset s) = Done Success s2 /\ g_DU s2 = 1/2.
Proof. do 2 eexists. cbv zeta. split; [sev|]. split; [rcbv; reflexivity|]. split; [sev|]. rcbv. reflexivity. Qed.
Print Assumptions C44_refuted.
