(** C132: accuracy of the bisection before a singular point, with load control *)
From Verif Require Import VS Status RunTac ALMBase ALMBaseProofs ALMStep ALMLog ALMPoints ALMRun ALMVerbose ALMRestart Props_ALMStep Props_ALMStab ALMSingular Props_ALMSingular Props_ALMExtended Props_ALMLoop Props_ALMLoop5 Props_ALMConverge Props_ALMBisect.
Local Open Scope R_scope.

(** [P]: the points of the equilibrium path (or near it) before the singular point at the load lc. A load control step from
    such a point of at most the length h which ends before lc succeeds, ends in such a point, and the tangent there has fa
    negative values; a step which passes lc fails or ends where the number of negative values is another one. *)
Definition passes {S : VS} {Mat} (p : problem S Mat) (o : opts) (P : S -> R -> Prop) (h lc : R) (fa : nat) : Prop :=
  forall t t' : st S Mat, P (s_U t) (s_L t) -> s_initialized t = true -> s_guess t = None -> s_adaptive t = false -> 0 < s_len t <= h -> step p o LoadControl t = Ret tt t' ->
    (s_L t + s_len t < lc -> s_stat t' = Success /\ P (s_U t') (s_L t') /\ negativesAt p o (s_U t') fa) /\
    (lc <= s_L t + s_len t -> s_stat t' <> Success \/ ~ negativesAt p o (s_U t') fa).

Section Accuracy.
Context {S : VS} {Mat : Type}.
Variable p : problem S Mat.
Variable o : opts.
Implicit Types s t : st S Mat.
Lemma negatives_fun u n n' : negativesAt p o u n -> negativesAt p o u n' -> n = n'.
Proof.
  intros (v & (m & J & V) & ->) (v' & (m' & J' & V') & ->). assert (m' = m) by congruence. subst m'.
  destruct V as [[B V]|[B V]]; destruct V' as [[B' V']|[B' V']]; try congruence.
Qed.
Lemma lc_guess s s1 : (2 <= o_maxIt o)%nat -> s_guess s = None -> step p o LoadControl s = Ret tt s1 -> s_guess s1 = None.
Proof.
  intros Hm G E. destruct (status_eqb (s_stat s1) Success) eqn:Q.
  - apply status_eqb_true in Q. destruct (step_outcome p o LoadControl s s1 E) as [(A & _)|[(_ & A & _)|(_ & _ & sP & sI & sJ & s2 & s7 & C & ->)]]; [contradiction|lia|].
    change (s_guess s7 = None). rewrite (step_guess_converged _ _ _ _ _ _ _ _ _ C). destruct C as [C _ _ _ _ _ _ _ _].
    rewrite predict_noGuess in C by (rewrite started_guess; exact G). apply load_predictor in C. destruct C as [_ C].
    rewrite C, started_guess. exact G.
  - assert (F : s_stat s1 <> Success) by (intros F; rewrite F in Q; discriminate).
    pose proof (failed_core p o LoadControl ltac:(discriminate) s s1 G E F) as K. unfold core in K. congruence.
Qed.
Lemma stab_guess x j s s' : computeStability_ p o x j s = Ret tt s' -> s_guess s' = s_guess s /\ s_initialized s' = s_initialized s.
Proof. intros E. pose proof (computeStability__keep p o x j s) as K. rewrite E in K. cbn [outSt] in K. unfold keep4, keep3, keep2, keep1 in K. split; congruence. Qed.

Variable P : S -> R -> Prop.
Variables h lc : R.
Variable fa : nat.
Hypothesis Hp : passes p o P h lc fa.
Hypothesis Hh : 0 < h.
Hypothesis Hb : o_bif o = BifDeterminant \/ o_bif o = BifEigenvalue.
Hypothesis Hm : (2 <= o_maxIt o)%nat.
Lemma half_pos r : 0 < h / 2 ^ r <= h.
Proof.
  assert (Q : 1 <= 2 ^ r) by (apply pow_R1_Rle; lra). split; [apply Rdiv_lt_0_compat; lra|].
  apply Rmult_le_reg_r with (2 ^ r); [lra|]. unfold Rdiv. rewrite Rmult_assoc, Rinv_l by lra. nra.
Qed.
Lemma half_next r : h / 2 ^ Datatypes.S r = h / 2 ^ r / 2.
Proof. cbn [pow]. field. apply pow_nonzero. lra. Qed.
Lemma loop_accuracy tol ref n : forall uold lold s b s' a r (fl : bool),
  P uold lold -> lold < lc -> lc <= lold + (if fl then 2 else 1) * (h / 2 ^ r) -> (a + (if fl then 1 else 0) <= r)%nat ->
  s_len s = h / 2 ^ r -> s_initialized s = true -> s_guess s = None -> s_adaptive s = false -> (0 < n)%nat ->
  bisectionLoop p o LoadControl n tol ref uold lold fa s = Ret b s' ->
  exists r', Rabs (s_L s' - lc) <= 2 * (h / 2 ^ r') /\
    (if b then exists x, smallestAt p o (s_U s') x /\ ref <> 0 /\ Rabs (x / ref) < tol else (a + r + n <= 2 * r' + 1)%nat).
Proof.
  induction n as [|n IH]; intros uold lold s b s' a r fl HP H1 H2 Hc Hl Hi Hg Ha Hn H; [lia|]. cbn [bisectionLoop] in H. cbv zeta in H.
  set (t := set_L lold (set_U uold s)) in *.
  destruct (step p o LoadControl t) as [[] t'|] eqn:Es; cbn [obind] in H; [|discriminate].
  destruct (C26_length_factor p o LoadControl t t' Es) as (A1 & A2 & _). change (s_adaptive t) with (s_adaptive s) in *. change (s_len t) with (s_len s) in *.
  specialize (A2 Ha). pose proof (half_pos r) as Hr.
  destruct (Hp t t' HP Hi Hg Ha ltac:(change (s_len t) with (s_len s); rewrite Hl; exact Hr) Es) as [Q1 Q2].
  change (s_L t) with lold in *. change (s_len t) with (s_len s) in *. rewrite Hl in *.
  pose proof (lc_guess t t' Hm Hg Es) as Gt. destruct (C32_load_control_partial p o t t' Hm Hg Es) as [LS LF]. change (s_L t) with lold in *. change (s_len t) with (s_len s) in *. rewrite Hl in *.
  unfold bisectionObjective in H. destruct (computeStability_ p o (s_U t') true t') as [[] s2|] eqn:E2; cbn [obind] in H; [|discriminate].
  destruct (stability_at p o true (s_U t') t' s2 Hb ltac:(discriminate) E2) as (m & v & HJ & Jm & Hv & N2 & M2 & U2 & L2 & Len2 & Ad2 & St2).
  destruct (stab_guess _ _ _ _ E2) as [G2 I2]. assert (It : s_initialized t' = true) by (rewrite (step_init p o LoadControl t t' Es); exact Hi).
  assert (Neg : negativesAt p o (s_U t') (s_negatives s2)).
  { exists v. split; [exists m; auto|]. rewrite N2. apply count_same. }
  set (acc := Nat.eqb fa (s_negatives s2) && match s_stat t' with Success => true | _ => false end) in *.
  set (s3 := if acc then s2 else set_len (s_len s2 / 2) s2) in *.
  unfold bisectionTermination in H. destruct (computeStability_ p o (s_U s3) false s3) as [[] s4|] eqn:E4; cbn [obind] in H; [|discriminate].
  assert (U3 : s_U s3 = s_U t') by (unfold s3; destruct acc; cbn; assumption).
  assert (J3 : s_jac s3 = Some m) by (unfold s3; destruct acc; exact Jm).
  destruct (stability_at p o false (s_U s3) s3 s4 Hb ltac:(intros _; exists m; rewrite U3; auto) E4) as (m' & v' & HJ' & _ & Hv' & N4 & M4 & U4 & L4 & Len4 & Ad4 & St4).
  destruct (stab_guess _ _ _ _ E4) as [G4 I4].
  rewrite U3 in HJ', U4.
  assert (L3 : s_L s3 = s_L t') by (unfold s3; destruct acc; exact L2).
  assert (G3 : s_guess s3 = None) by (unfold s3; destruct acc; cbn; congruence). assert (I3 : s_initialized s3 = true) by (unfold s3; destruct acc; cbn; congruence).
  assert (Sm : smallestAt p o (s_U t') (s_indicator s4)) by (exists v'; split; [exists m'; auto|]; apply minCoeff_some, M4).
  (* the end of the trial *)
  assert (End : Rabs (s_L s4 - lc) <= 2 * (h / 2 ^ r)).
  { rewrite L4, L3. destruct (status_eqb (s_stat t') Success) eqn:Q.
    - apply status_eqb_true in Q. rewrite (LS Q). apply Rabs_le. destruct fl; lra.
    - assert (F : s_stat t' <> Success) by (intros F; rewrite F in Q; discriminate). rewrite (LF F). apply Rabs_le. destruct fl; lra. }
  (* the next base point *)
  assert (W' : exists a1 r1 fl1, P (if acc then s_U s3 else uold) (if acc then s_L s3 else lold) /\ (if acc then s_L s3 else lold) < lc /\
    lc <= (if acc then s_L s3 else lold) + (if (fl1 : bool) then 2 else 1) * (h / 2 ^ r1) /\ (a1 + (if fl1 then 1 else 0) <= r1)%nat /\ (a1 + r1 = a + r + 1)%nat /\ s_len s4 = h / 2 ^ r1).
  { destruct acc eqn:Ac.
    - unfold acc in Ac. apply andb_true_iff in Ac as [Ac1 Ac2]. apply Nat.eqb_eq in Ac1. assert (Su : s_stat t' = Success) by (destruct (s_stat t'); congruence).
      assert (B : lold + h / 2 ^ r < lc). { destruct (Rlt_or_le (lold + h / 2 ^ r) lc) as [B|B]; [exact B|]. destruct (Q2 B) as [F|F]; [contradiction|]. exfalso. apply F. rewrite Ac1. exact Neg. }
      destruct (Q1 B) as (_ & P' & _). rewrite U3, L3, (LS Su) in *. destruct fl; [|lra]. exists (Datatypes.S a), r, false.
      split; [exact P'|]. split; [exact B|]. split; [lra|]. split; [lia|]. split; [lia|]. rewrite Len4. unfold s3. congruence.
    - exists a, (Datatypes.S r), true. split; [exact HP|]. split; [exact H1|]. split; [|split; [destruct fl; lia|split; [lia|]]].
      + rewrite half_next. destruct (Rlt_or_le (lold + h / 2 ^ r) lc) as [B|B]; [|lra]. exfalso. destruct (Q1 B) as (Su & _ & Ng).
        unfold acc in Ac. rewrite (negatives_fun _ _ _ Ng Neg), Nat.eqb_refl, Su in Ac. discriminate.
      + rewrite Len4, half_next. unfold s3. cbn. rewrite Len2, A2. reflexivity. }
  destruct W' as (a1 & r1 & fl1 & W1 & W2 & W3 & W4 & W5 & W6).
  destruct (oltb (option_map Rabs (rdiv (s_indicator s4) ref)) tol) eqn:Ot.
  - injection H as <- <-. exists r. split; [exact End|].
    exists (s_indicator s4). rewrite U4. split; [exact Sm|]. unfold rdiv in Ot. destruct (Reqb ref 0) eqn:R0; [discriminate|]. apply Reqb_false in R0.
    split; [exact R0|]. cbn [option_map oltb] in Ot. apply Rltb_true in Ot. exact Ot.
  - destruct n as [|n].
    + cbn [bisectionLoop] in H. injection H as <- <-. exists r. split; [exact End|]. destruct fl; lia.
    + assert (Ad : s_adaptive s4 = false) by (rewrite Ad4; unfold s3; destruct acc; cbn; congruence).
      destruct (IH _ _ _ _ _ a1 r1 fl1 W1 W2 W3 W4 W6 ltac:(congruence) ltac:(congruence) Ad ltac:(lia) H) as (r' & R1 & R2).
      exists r'. split; [exact R1|]. destruct b; [exact R2|lia].
Qed.
End Accuracy.

(** The search starts at a point before the singular load lc, which the current length passes. The load handed over by the
    bisection is within 2 h / 2^r of lc, where h is the length at the start: either all trials were made, and 2 r + 2 is at
    least MaxIter, or the test of the smallest value was met. *)
Theorem C132_bisection_accuracy {S : VS} {Mat} (p : problem S Mat) o (P : S -> R -> Prop) lc fa u l tol s b s' :
  (o_bif o = BifDeterminant \/ o_bif o = BifEigenvalue) -> (2 <= o_maxIt o)%nat -> s_initialized s = true -> s_guess s = None -> 0 < s_len s ->
  P u l -> negativesAt p o u fa -> l < lc <= l + s_len s -> passes p o P (s_len s) lc fa ->
  bisectionSolve p o LoadControl u l tol s = Ret b s' ->
  exists r, Rabs (s_L s' - lc) <= 2 * (s_len s / 2 ^ r) /\
    ((o_maxIt o <= 2 * r + 2)%nat \/ exists x ref, smallestAt p o u ref /\ smallestAt p o (s_U s') x /\ ref <> 0 /\ Rabs (x / ref) < tol).
Proof.
  intros B Hm Hi G Hh HP HN [B1 B2] Hp H. unfold bisectionSolve in H. cbv zeta in H.
  set (s0 := set_adaptive false (set_L l (set_U u s))) in *. change (s_len (set_L l (set_U u s))) with (s_len s) in H.
  unfold bisectionTermination in H. destruct (computeStability_ p o (s_U s0) true s0) as [[] s1|] eqn:E1; cbn [obind] in H; [|discriminate].
  destruct (stability_at p o true (s_U s0) s0 s1 B ltac:(discriminate) E1) as (m & v & Hm1 & Jm & Hv & N1 & M1 & U1 & L1 & Len1 & Ad1 & _).
  unfold bisectionObjective in H. destruct (computeStability_ p o (s_U s1) false s1) as [[] s2|] eqn:E2; cbn [obind] in H; [|discriminate].
  destruct (stability_at p o false (s_U s1) s1 s2 B ltac:(intros _; exists m; rewrite U1; auto) E2) as (m2 & v2 & Hm2 & _ & Hv2 & N2 & M2 & U2 & L2 & Len2 & Ad2 & _).
  destruct (stab_guess p o _ _ _ _ E1) as [G1 I1]. destruct (stab_guess p o _ _ _ _ E2) as [G2 I2].
  rewrite U1 in Hm2. change (s_U s0) with u in *. change (s_L s0) with l in *. change (s_len s0) with (s_len s) in *. change (s_adaptive s0) with false in *. change (s_guess s0) with (s_guess s) in *. change (s_initialized s0) with (s_initialized s) in *.
  rewrite U2, L2, U1, L1 in H.
  assert (EN : s_negatives s2 = fa). { apply (negatives_fun p o u); [|exact HN]. exists v2. split; [exists m2; auto|]. rewrite N2. apply count_same. }
  rewrite EN in H.
  destruct (bisectionLoop p o LoadControl (o_maxIt o - 1) tol (s_indicator s1) u l fa s2) as [c s3|] eqn:E3; cbn [obind] in H; [|discriminate].
  match type of H with modeLoop _ _ _ _ _ ?x = _ => pose proof (modeLoop_point p o 5 v0 c x) as Mp end. rewrite H in Mp. cbn [outSt] in Mp.
  assert (Mp' : (s_U s', s_L s') = (s_U s3, s_L s3)) by exact Mp. injection Mp' as MU ML. clear Mp H.
  assert (B2' : lc <= l + 1 * (s_len s / 2 ^ 0)) by (rewrite pow_O; lra).
  destruct (loop_accuracy p o P (s_len s) lc fa Hp Hh B Hm tol (s_indicator s1) (o_maxIt o - 1) u l s2 c s3 0 0 false HP B1 B2' (le_n 0)
    ltac:(rewrite Len2, Len1; cbn; field) ltac:(congruence) ltac:(congruence) ltac:(congruence) ltac:(lia) E3) as (r & R1 & R2).
  exists r. rewrite ML. split; [exact R1|]. destruct c; [right|left; lia].
  destruct R2 as (x & X1 & X2 & X3). exists x, (s_indicator s1). rewrite MU. repeat (split; [|auto]). exists v. split; [exists m; auto|]. apply minCoeff_some, M1.
Qed.
Print Assumptions C132_bisection_accuracy.

(** a load control step whose predictor is already in equilibrium *)
Lemma lc_exact {S : VS} {Mat} (p : problem S Mat) o (t : st S Mat) m x m2 n :
  o_quasi o = false -> o_verbose o = false -> o_maxIt o = Datatypes.S (Datatypes.S n) -> 0 < o_tolF o -> 0 < o_tolU o ->
  stabReady p o ->
  s_initialized t = true -> s_guess t = None -> s_adaptive t = false ->
  p_jacobian p (s_U t) v0 = Some m -> p_factor p m = true -> p_solve p m (p_F p) = Some x ->
  p_residual p (s_U t +v s_len t *v x) (s_L t + s_len t) = Some v0 -> p_jacobian p (s_U t +v s_len t *v x) v0 = Some m2 -> (p_factor p m2 = true -> p_solve p m2 v0 = Some v0) ->
  norm ((s_L t + s_len t) *v p_F p) <> 0 -> norm (s_len t *v x) <> 0 ->
  exists t', step p o LoadControl t = Ret tt t' /\
    if p_factor p m2 then s_stat t' = Success /\ s_U t' = s_U t +v s_len t *v x /\ s_L t' = s_L t + s_len t else s_stat t' = SolverError.
Proof.
  intros Q V HM TF TU SR HI G HA J FM SM RS J2 S2 N1 N2.
  assert (U0 : s_U t +v v0 = s_U t) by apply vadd_0. assert (O0 : @vopp S v0 = v0) by vring.
  assert (E1 : oltb (rdiv (@norm S v0) (norm ((s_L t + s_len t) *v p_F p))) (o_tolF o) = true).
  { unfold rdiv. rewrite (proj2 (Reqb_false _ _) N1), norm_0. cbn [oltb]. apply Rltb_true. replace (0 / norm ((s_L t + s_len t) *v p_F p)) with 0 by (field; exact N1). exact TF. }
  assert (E2 : oltb (rdiv (@norm S v0) (norm (s_len t *v x))) (o_tolU o) = true).
  { unfold rdiv. rewrite (proj2 (Reqb_false _ _) N2), norm_0. cbn [oltb]. apply Rltb_true. replace (0 / norm (s_len t *v x)) with 0 by (field; exact N2). exact TU. }
  (* the predictor *)
  assert (A : exists s2, step_ p o LoadControl t = stepLoop p o LoadControl (Datatypes.S n) 1 s2 /\
    (s_U s2, s_L s2, s_DU s2, s_DL s2, s_dU s2, s_len s2, s_adaptive s2) = (s_U t, s_L t, s_len t *v x, s_len t, v0, s_len t, false) /\
    s_basF s2 = norm ((s_L t + s_len t) *v p_F p) /\ s_basU s2 = norm (s_len t *v x) /\ s_resVec s2 = v0).
  { unfold step_. rewrite HI. cbn [negb]. fold (started LoadControl t). set (s0 := started LoadControl t).
    assert (K0 : (s_U s0, s_L s0, s_DU s0, s_dU s0, s_len s0, s_adaptive s0, s_guess s0, s_numIt s0) = (s_U t, s_L t, v0, v0, s_len t, false, None, 0%nat)) by (rewrite <- HA, <- G; reflexivity).
    clearbody s0. cbv zeta. unfold predict. replace (s_guess s0) with (@None (S * R)) by congruence. unfold predictor.
    assert (J0 : p_jacobian p (s_U s0 +v s_DU s0) (s_dU s0) = Some m) by (replace (s_U s0 +v s_DU s0) with (s_U t) by (rewrite <- U0; congruence); replace (s_dU s0) with (v0 : S) by congruence; exact J).
    destruct (jac_run p m s0 J0 FM) as (s1 & R1 & K1 & F1 & J1 & V1). rewrite R1. cbn [obind].
    set (z := set_DL (s_len s1) (set_dL (s_len s1) s1)). assert (Kz : s_fact z = Some m) by exact F1.
    assert (K2 : (s_U z, s_L z, s_DL z, s_dL z, s_dU z, s_len z, s_adaptive z, s_numIt z) = (s_U t, s_L t, s_len t, s_len t, v0, s_len t, false, 0%nat)).
    { unfold keep4, keep3, keep2, keep1 in K1. unfold z. cbn. congruence. }
    clearbody z. destruct (ut_run p m x z Kz SM) as (s2 & R2 & K3 & F2 & J3 & V2 & T2). rewrite R2. cbn [obind].
    set (w := set_DU (s_dL s2 *v s_dUt s2) s2).
    assert (K4 : (s_U w, s_L w, s_DU w, s_DL w, s_dU w, s_len w, s_adaptive w, s_numIt w) = (s_U t, s_L t, s_len t *v x, s_len t, v0, s_len t, false, 0%nat)).
    { unfold keep4, keep3, keep2, keep1 in K3. unfold w. cbn. rewrite T2. congruence. }
    clearbody w. assert (RW : p_residual p (s_U w +v s_DU w) (s_L w + s_DL w) = Some v0) by (replace (s_U w) with (s_U t) by congruence; replace (s_DU w) with (s_len t *v x) by congruence; replace (s_L w) with (s_L t) by congruence; replace (s_DL w) with (s_len t) by congruence; exact RS).
    destruct (res_run p v0 w RW) as (s3 & R3 & K5 & V3 & J4). rewrite R3. cbn [obind]. rewrite V, Q. cbn [obind].
    replace (o_maxIt o - 1)%nat with (Datatypes.S n) by lia. eexists. split; [reflexivity|]. unfold computeResidualNorms.
    assert (K6 : (s_U s3, s_L s3, s_DU s3, s_DL s3, s_dU s3, s_len s3, s_adaptive s3, s_numIt s3) = (s_U t, s_L t, s_len t *v x, s_len t, v0, s_len t, false, 0%nat)).
    { unfold keep4, keep3, keep2, keep1 in K5. congruence. }
    replace (s_numIt s3) with 0%nat by congruence. cbn [Nat.eqb]. cbn. repeat split; congruence. }
  destruct A as (s2 & EA & KA & BF & BU & RA).
  (* the iteration *)
  assert (C : exists w, (if p_factor p m2 then stepLoop p o LoadControl (Datatypes.S n) 1 s2 = Ret tt w /\ s_U w = s_U t +v s_len t *v x /\ s_L w = s_L t + s_len t
    else stepLoop p o LoadControl (Datatypes.S n) 1 s2 = Exc (EThrow 3) w)).
  { cbn [stepLoop]. cbv zeta. set (z := set_numIt 1 s2).
    assert (Kz : (s_U z, s_L z, s_DU z, s_DL z, s_dU z, s_len z, s_adaptive z, s_basF z, s_basU z, s_resVec z, s_numIt z) = (s_U t, s_L t, s_len t *v x, s_len t, v0, s_len t, false, s_basF s2, s_basU s2, v0, 1%nat)) by (unfold z; cbn; congruence).
    clearbody z. unfold newJacobian. rewrite Q. cbn [negb orb]. unfold quasiNewtonIteration.
    assert (Jz : p_jacobian p (s_U z +v s_DU z) (s_dU z) = Some m2) by (replace (s_U z) with (s_U t) by congruence; replace (s_DU z) with (s_len t *v x) by congruence; replace (s_dU z) with (v0 : S) by congruence; exact J2).
    destruct (p_factor p m2) eqn:F2.
    - destruct (jac_run p m2 z Jz F2) as (s3 & R3 & K3 & F3 & J3 & V3). rewrite R3. cbn [obind]. unfold iteration.
      assert (V3' : p_solve p m2 (vopp (s_resVec s3)) = Some v0) by (replace (s_resVec s3) with (v0 : S) by congruence; rewrite O0; exact (S2 eq_refl)).
      destruct (ubar_run p m2 v0 s3 F3 V3') as (s4 & R4 & K4 & J4 & T4 & D4). rewrite R4. cbn [obind]. set (y := set_dU (s_dUbar s4) s4). set (y2 := set_DU (s_DU y +v s_dU y) y).
      assert (Ky : (s_U y2, s_L y2, s_DU y2, s_DL y2, s_dU y2, s_len y2, s_adaptive y2, s_basF y2, s_basU y2, s_numIt y2) = (s_U t, s_L t, s_len t *v x, s_len t, v0, s_len t, false, s_basF s2, s_basU s2, 1%nat)).
      { unfold keep4, keep3, keep2, keep1 in K3, K4. assert (X : s_len t *v x +v v0 = s_len t *v x) by apply vadd_0. unfold y2, y. cbn. rewrite D4. replace (s_DU s4) with (s_len t *v x) by congruence. rewrite X. congruence. }
      assert (Jy : s_jac y2 = Some m2) by (unfold y2, y; cbn; congruence). clearbody y2.
      destruct (stab_run p o m2 y2 SR Jy) as (s5 & R5 & J5). rewrite R5. cbn [obind].
      assert (K5 : keep4 s5 = keep4 y2). { pose proof (computeStability_keep p o false y2) as K. rewrite R5 in K. exact K. }
      assert (K6 : (s_U s5, s_L s5, s_DU s5, s_DL s5, s_dU s5, s_len s5, s_adaptive s5, s_basF s5, s_basU s5, s_numIt s5) = (s_U t, s_L t, s_len t *v x, s_len t, v0, s_len t, false, s_basF s2, s_basU s2, 1%nat)).
      { unfold keep4, keep3, keep2, keep1 in K5. congruence. }
      assert (RW : p_residual p (s_U s5 +v s_DU s5) (s_L s5 + s_DL s5) = Some v0) by (replace (s_U s5) with (s_U t) by congruence; replace (s_DU s5) with (s_len t *v x) by congruence; replace (s_L s5) with (s_L t) by congruence; replace (s_DL s5) with (s_len t) by congruence; exact RS).
      destruct (res_run p v0 s5 RW) as (s6 & R6 & K7 & V6 & J6). rewrite R6. cbn [obind]. rewrite V. cbn [obind].
      assert (K8 : (s_U s6, s_L s6, s_DU s6, s_DL s6, s_dU s6, s_len s6, s_adaptive s6, s_basF s6, s_basU s6, s_numIt s6) = (s_U t, s_L t, s_len t *v x, s_len t, v0, s_len t, false, s_basF s2, s_basU s2, 1%nat)).
      { unfold keep4, keep3, keep2, keep1 in K7. congruence. }
      unfold computeResidualNorms. replace (s_numIt s6) with 1%nat by congruence. cbn [Nat.eqb]. set (c := set_resU _ _).
      assert (Kc : (s_U c, s_L c, s_DU c, s_DL c, s_adaptive c, s_resF c, s_resU c) = (s_U t, s_L t, s_len t *v x, s_len t, false, rdiv (@norm S v0) (norm ((s_L t + s_len t) *v p_F p)), rdiv (@norm S v0) (norm (s_len t *v x)))).
      { unfold c. cbn -[norm rdiv]. rewrite V6. replace (s_dU s6) with (v0 : S) by congruence. rewrite <- BF, <- BU. congruence. }
      clearbody c. unfold convergedTest. replace (s_resF c) with (rdiv (@norm S v0) (norm ((s_L t + s_len t) *v p_F p))) by congruence. replace (s_resU c) with (rdiv (@norm S v0) (norm (s_len t *v x))) by congruence.
      rewrite E1, E2. cbn [andb]. unfold iterationFinish. cbn [s_adaptive set_L set_U set_Lprev set_Uprev set_conv]. replace (s_adaptive c) with false by congruence.
      eexists. split; [reflexivity|]. cbn. split; congruence.
    - unfold stepJacobian, refreshJacobian, computeJacobianAt, factorizeMatrix. rewrite Jz. cbn [obind isSome]. rewrite F2. cbn [obind]. eexists. reflexivity. }
  destruct C as (w & C). unfold step. rewrite EA. destruct (p_factor p m2).
  - destruct C as (-> & C1 & C2). eexists. split; [reflexivity|]. cbn. auto.
  - rewrite C. cbn. eexists. split; reflexivity.
Qed.

(** The primary path u = (l, 0) of the energy (u1^2 + (1 - u1) u2^2) / 2 - l u1, with a bifurcation at the load 1 *)
Definition R2 : VS := VS_prod VS_R VS_R.
Definition det3 (m : R * R * R) : R := let '(a, b, d) := m in a * d - b * b.
Definition exFork : problem R2 (R * R * R) := @mkProblem R2 (R * R * R)
  (fun u l => Some (fst u - l - snd u * snd u / 2, (1 - fst u) * snd u)) (fun u _ => Some (1, - snd u, 1 - fst u))
  (fun m => negb (Reqb (det3 m) 0))
  (fun m f => if Reqb (det3 m) 0 then None else let '(a, b, d) := m in Some ((d * fst f - b * snd f) / det3 m, (a * snd f - b * fst f) / det3 m))
  (fun m x => let '(a, b, d) := m in (a * fst x + b * snd x, b * fst x + d * snd x))
  (fun m => let '(a, b, d) := m in [a; d - b * b / a]) (fun _ => None) (1, 0) (1, 1) 2.
Definition forkPath (u : R2) (l : R) : Prop := u = (l, 0) /\ 0 <= l < 1.
Lemma fork_passes n h : passes exFork (exOpts (Datatypes.S (Datatypes.S n))) forkPath h 1 0.
Proof.
  intros t t' [EU EL] HI G HA [D1 D2] H. set (d := s_len t) in *. set (l := s_L t) in *.
  assert (Z : det3 (1, - 0, 1 - l) = 1 - l) by (cbn; ring).
  assert (EX : s_U t +v d *v ((1, 0) : R2) = (l + d, 0)) by (rewrite EU; cbn; f_equal; ring).
  destruct (lc_exact exFork (exOpts (Datatypes.S (Datatypes.S n))) t (1, - 0, 1 - l) ((1, 0) : R2) (1, - 0, 1 - (l + d)) n) as (t1 & E & K); try reflexivity; try assumption; fold l d.
  - cbn. lra.
  - cbn. lra.
  - split; [discriminate|discriminate|intros [[a b] c]; discriminate|discriminate].
  - rewrite EU. reflexivity.
  - cbn -[det3]. rewrite Z, (proj2 (Reqb_false (1 - l) 0)) by lra. reflexivity.
  - cbn -[det3]. rewrite Z, (proj2 (Reqb_false (1 - l) 0)) by lra. f_equal. f_equal; field; lra.
  - rewrite EX. cbn. f_equal. f_equal; field.
  - rewrite EX. reflexivity.
  - cbn -[det3]. destruct (Reqb (det3 (1, - 0, 1 - (l + d))) 0) eqn:Q; [discriminate|]. intros _. apply Reqb_false in Q. f_equal. f_equal; field; exact Q.
  - rewrite norm_zero. intros Q. injection Q. lra.
  - rewrite norm_zero. intros Q. injection Q. lra.
  - assert (t' = t1) by congruence. subst t1. fold d l in K. rewrite EX in K.
    assert (F2 : p_factor exFork (1, - 0, 1 - (l + d)) = negb (Reqb (1 - (l + d)) 0)) by (cbn -[det3]; f_equal; f_equal; cbn; ring).
    rewrite F2 in K. assert (NG : forall x, negativesAt exFork (exOpts (Datatypes.S (Datatypes.S n))) ((x, 0) : R2) (if Rlt_dec (1 - x) 0 then 1 else 0)%nat).
    { intros x. exists [1; 1 - x - - 0 * - 0 / 1]. split; [exists (1, - 0, 1 - x); split; [reflexivity|left; split; reflexivity]|].
      cbn. replace (1 - x - - 0 * - 0 / 1) with (1 - x) by field. destruct (Rlt_dec 1 0); [lra|]. destruct (Rlt_dec (1 - x) 0); reflexivity. }
    split; intros B.
    + rewrite (proj2 (Reqb_false (1 - (l + d)) 0)) in K by lra. cbn [negb] in K. destruct K as (K1 & K2 & K3). split; [exact K1|]. rewrite K2, K3. split; [split; [reflexivity|lra]|].
      specialize (NG (l + d)). destruct (Rlt_dec (1 - (l + d)) 0); [lra|exact NG].
    + destruct (Reqb (1 - (l + d)) 0) eqn:Q; cbn [negb] in K; [left; rewrite K; discriminate|]. apply Reqb_false in Q. destruct K as (K1 & K2 & K3). right. rewrite K2. intros N.
      pose proof (negatives_fun _ _ _ _ _ N (NG (l + d))) as W. destruct (Rlt_dec (1 - (l + d)) 0); [discriminate|lra].
Qed.
Lemma fork_modes o n : forall v c (s : st R2 (R * R * R)) m, s_jac s = Some m -> det3 m <> 0 -> exists b s', modeLoop exFork o n v c s = Ret b s'.
Proof.
  induction n as [|n IH]; intros v c s m J D; cbn [modeLoop]; [eauto|].
  unfold refactorize, factorizeMatrix, solveSystem. rewrite J. cbn [p_factor exFork]. rewrite (proj2 (Reqb_false (det3 m) 0) D). cbn [negb obind s_fact set_fact logEv].
  destruct m as [[a b] d]. cbn [p_solve exFork]. rewrite (proj2 (Reqb_false (det3 (a, b, d)) 0) D). cbn [obind].
  match goal with |- context [Rltb ?x ?y] => destruct (Rltb x y) end; [eauto|]. apply (IH _ _ _ (a, b, d)); [exact J|exact D].
Qed.
Definition fp (x : R) : R2 := (x, 0).
Lemma fork_stab n x (j : bool) (s : st R2 (R * R * R)) : x <> 1 -> (j = false -> s_jac s = Some (1, - 0, 1 - x)) ->
  exists s', computeStability_ exFork (exOpts n) (fp x) j s = Ret tt s' /\ s_jac s' = Some (1, - 0, 1 - x).
Proof.
  intros X J. assert (D : Reqb (det3 (1, - 0, 1 - x)) 0 = false) by (apply Reqb_false; cbn; lra).
  unfold computeStability_.
  assert (E : exists s1, (if j then refreshJacobian exFork (fp x) v0 s else Ret tt s) = Ret tt s1 /\ s_jac s1 = Some (1, - 0, 1 - x)).
  { destruct j; [|exists s; auto]. unfold refreshJacobian, computeJacobianAt, factorizeMatrix. cbn [p_jacobian exFork p_factor fp fst snd obind isSome]. rewrite D. cbn [negb obind]. rewrite D. eexists. split; reflexivity. }
  destruct E as (s1 & -> & J1). cbn [obind]. unfold stabilityVec. cbn [o_bif o_ldlt exOpts]. rewrite J1. unfold factorizeMatrix. cbn [p_factor exFork]. rewrite D. cbn [negb obind p_diag exFork minCoeff].
  eexists. split; [reflexivity|exact J1].
Qed.
Lemma fork_loop n tol ref k : forall (uold : R2) lold s, forkPath uold lold -> 0 < s_len s -> s_initialized s = true -> s_guess s = None -> s_adaptive s = false ->
  (exists y, y <> 1 /\ s_jac s = Some (1, - 0, 1 - y)) ->
  exists b s' x, bisectionLoop exFork (exOpts (Datatypes.S (Datatypes.S n))) LoadControl k tol ref uold lold 0 s = Ret b s' /\ x <> 1 /\ s_jac s' = Some (1, - 0, 1 - x).
Proof.
  set (o := exOpts (Datatypes.S (Datatypes.S n))).
  induction k as [|k IH]; intros uold lold s HP Hl Hi Hg Ha HJ; cbn [bisectionLoop]; [destruct HJ as (y & Y & HJ); exists false, s, y; auto|]. cbv zeta.
  set (t := set_L lold (set_U uold s)).
  assert (E : exists t' x, step exFork o LoadControl t = Ret tt t' /\ s_U t' = (fp x) /\ s_L t' = x /\ x <> 1 /\ 0 <= x).
  { destruct HP as [-> HP]. set (d := s_len s). assert (Pd : 0 < d) by exact Hl. assert (EX : ((lold, 0) : R2) +v d *v ((1, 0) : R2) = (lold + d, 0)) by (cbn; f_equal; ring).
    assert (Z : det3 (1, - 0, 1 - lold) = 1 - lold) by (cbn; ring).
    destruct (lc_exact exFork o t (1, - 0, 1 - lold) ((1, 0) : R2) (1, - 0, 1 - (lold + d)) n) as (t1 & E & K); try reflexivity; try assumption.
    - cbn. lra.
    - cbn. lra.
    - split; [discriminate|discriminate|intros [[a b] c]; discriminate|discriminate].
    - cbn -[det3]. rewrite Z, (proj2 (Reqb_false (1 - lold) 0)) by lra. reflexivity.
    - cbn -[det3]. rewrite Z, (proj2 (Reqb_false (1 - lold) 0)) by lra. f_equal. f_equal; field; lra.
    - change (s_U t) with ((lold, 0) : R2). change (s_len t) with d. rewrite EX. cbn. f_equal. f_equal; field.
    - change (s_U t) with ((lold, 0) : R2). change (s_len t) with d. rewrite EX. reflexivity.
    - cbn -[det3]. destruct (Reqb (det3 (1, - 0, 1 - (lold + d))) 0) eqn:Q; [discriminate|]. intros _. apply Reqb_false in Q. f_equal. f_equal; field; exact Q.
    - change (s_L t) with lold. change (s_len t) with d. rewrite norm_zero. intros Q. injection Q. lra.
    - change (s_len t) with d. rewrite norm_zero. intros Q. injection Q. lra.
    - change (s_U t) with ((lold, 0) : R2) in K. change (s_len t) with d in K. change (s_L t) with lold in K. rewrite EX in K. exists t1.
      assert (F2 : p_factor exFork (1, - 0, 1 - (lold + d)) = negb (Reqb (1 - (lold + d)) 0)) by (cbn -[det3]; f_equal; f_equal; cbn; ring). rewrite F2 in K.
      destruct (Reqb (1 - (lold + d)) 0) eqn:Q; cbn [negb] in K.
      + destruct (C23_failed_step_keeps_solution exFork o LoadControl t t1) as (KU & KL & _); [left; split; [exact E|rewrite K; discriminate]|]. exists lold. split; [exact E|]. split; [exact KU|]. split; [exact KL|lra].
      + apply Reqb_false in Q. destruct K as (_ & K2 & K3). exists (lold + d). split; [exact E|]. split; [exact K2|]. split; [exact K3|lra]. }
  destruct E as (t' & x & E & EU & EL & X1 & X0). rewrite E. cbn [obind].
  assert (Pt : s_len t' = s_len s /\ s_adaptive t' = false /\ s_guess t' = None /\ s_initialized t' = true).
  { destruct (C26_length_factor exFork o LoadControl t t' E) as (A1 & A2 & _). split; [apply A2; exact Ha|]. split; [rewrite A1; exact Ha|]. split; [apply (lc_guess exFork o t t'); [cbn; lia|exact Hg|exact E]|]. rewrite (step_init exFork o LoadControl t t' E). exact Hi. }
  destruct Pt as (Pt1 & Pt2 & Pt3 & Pt4). unfold bisectionObjective. rewrite EU. destruct (fork_stab (Datatypes.S (Datatypes.S n)) x true t' X1 ltac:(discriminate)) as (s2 & E2 & J2). fold o in E2. rewrite E2. cbn [obind].
  assert (K2 : keep4 s2 = keep4 t'). { pose proof (computeStability__keep exFork o (fp x) true t') as K. rewrite E2 in K. exact K. }
  assert (K2' : (s_U s2, s_L s2, s_len s2, s_adaptive s2, s_guess s2, s_initialized s2) = ((fp x), x, s_len s, false, None, true)) by (unfold keep4, keep3, keep2, keep1 in K2; congruence).
  set (acc := Nat.eqb 0 (s_negatives s2) && _). set (s3 := if acc then s2 else set_len (s_len s2 / 2) s2).
  assert (K3 : (s_U s3, s_L s3, s_adaptive s3, s_guess s3, s_initialized s3, s_jac s3) = ((fp x), x, false, None, true, Some (1, - 0, 1 - x))) by (unfold s3; destruct acc; cbn [s_U s_L s_adaptive s_guess s_initialized s_jac set_len]; congruence).
  assert (L3 : 0 < s_len s3) by (unfold s3; destruct acc; cbn; replace (s_len s2) with (s_len s) by congruence; lra).
  unfold bisectionTermination. replace (s_U s3) with (fp x) by congruence.
  destruct (fork_stab (Datatypes.S (Datatypes.S n)) x false s3 X1 ltac:(intros _; congruence)) as (s4 & E4 & J4). fold o in E4. rewrite E4. cbn [obind].
  assert (K4 : keep4 s4 = keep4 s3). { pose proof (computeStability__keep exFork o (fp x) false s3) as K. rewrite E4 in K. exact K. }
  assert (K4' : (s_len s4, s_adaptive s4, s_guess s4, s_initialized s4) = (s_len s3, false, None, true)) by (unfold keep4, keep3, keep2, keep1 in K4; congruence).
  destruct (oltb _ tol); [exists true, s4, x; auto|].
  apply IH; try congruence; [|exists x; auto].
  destruct acc eqn:Ac; [|exact HP]. unfold acc in Ac. apply andb_true_iff in Ac as [Ac1 Ac2]. apply Nat.eqb_eq in Ac1.
  destruct (stability_at exFork o true (fp x) t' s2 (or_introl eq_refl) ltac:(discriminate) E2) as (m & v & Hm & Jm & Hv & N2 & _).
  assert (NG : negativesAt exFork o (s_U t') 0). { rewrite EU. exists v. split; [exists m; auto|]. rewrite Ac1, N2. apply count_same. }
  destruct (fork_passes n (s_len s) t t' HP Hi Hg Ha (conj Hl (Rle_refl _)) E) as [Q1 Q2]. replace (s_U s3) with (fp x) by congruence. replace (s_L s3) with x by congruence.
  destruct (Rlt_or_le (s_L t + s_len t) 1) as [B|B].
  - destruct (Q1 B) as (_ & P' & _). rewrite EU, EL in P'. exact P'.
  - exfalso. destruct (Q2 B) as [F|F]; [apply F; destruct (s_stat t'); congruence|exact (F NG)].
Qed.
(** from the load 1/2 with the length 3/5 and the tolerance 0: whatever MaxIter = n + 2 is, the bisection returns, and the load is within 6/5 / 2^r of the singular one, n <= 2 r *)
Example C132_example n : exists b s, bisectionSolve exFork (exOpts (Datatypes.S (Datatypes.S n))) LoadControl (fp (1/2)) (1/2) 0 (exSt R2 (R * R * R) (3/5)) = Ret b s /\
  exists r, Rabs (s_L s - 1) <= 6/5 / 2 ^ r /\ (n <= 2 * r)%nat.
Proof.
  assert (E : exists b s, bisectionSolve exFork (exOpts (Datatypes.S (Datatypes.S n))) LoadControl (fp (1/2)) (1/2) 0 (exSt R2 (R * R * R) (3/5)) = Ret b s).
  { unfold bisectionSolve. cbv zeta. set (s0 := set_adaptive false _). unfold bisectionTermination, bisectionObjective. change (s_U s0) with (fp (1/2)).
    destruct (fork_stab (Datatypes.S (Datatypes.S n)) (1/2) true s0 ltac:(lra) ltac:(discriminate)) as (s1 & E1 & J1). rewrite E1. cbn [obind].
    pose proof (computeStability__keep exFork (exOpts (Datatypes.S (Datatypes.S n))) (fp (1/2)) true s0) as K1. rewrite E1 in K1. cbn [outSt] in K1.
    assert (K1' : (s_U s1, s_L s1, s_len s1, s_adaptive s1, s_guess s1, s_initialized s1) = ((fp (1/2)), 1/2, 3/5, false, None, true)) by (unfold keep4, keep3, keep2, keep1 in K1; transitivity (s_U s0, s_L s0, s_len s0, s_adaptive s0, s_guess s0, s_initialized s0); [congruence|reflexivity]).
    replace (s_U s1) with (fp (1/2)) by congruence.
    destruct (fork_stab (Datatypes.S (Datatypes.S n)) (1/2) false s1 ltac:(lra) ltac:(intros _; exact J1)) as (s2 & E2 & J2). rewrite E2. cbn [obind].
    pose proof (computeStability__keep exFork (exOpts (Datatypes.S (Datatypes.S n))) (fp (1/2)) false s1) as K2. rewrite E2 in K2. cbn [outSt] in K2.
    assert (K2' : (s_U s2, s_L s2, s_len s2, s_adaptive s2, s_guess s2, s_initialized s2) = ((fp (1/2)), 1/2, 3/5, false, None, true)) by (unfold keep4, keep3, keep2, keep1 in K2; congruence).
    assert (N0 : s_negatives s2 = 0%nat).
    { destruct (stability_at exFork (exOpts (Datatypes.S (Datatypes.S n))) false (fp (1/2)) s1 s2 (or_introl eq_refl)) as (m & v & Hm & Jm & Hv & N2 & _); [intros _; eexists; split; [reflexivity|exact J1]|exact E2|].
      rewrite N2. injection Hm as <-. destruct Hv as [[_ ->]|[_ Hv]]; [|discriminate]. unfold countNegatives. cbn [p_diag exFork filter]. rewrite !(proj2 (Rltb_false _ 0)) by lra. reflexivity. }
    rewrite N0. replace (s_U s2) with (fp (1/2)) by congruence. replace (s_L s2) with (1/2) by congruence.
    destruct (fork_loop n 0 (s_indicator s1) (o_maxIt (exOpts (Datatypes.S (Datatypes.S n))) - 1) (fp (1/2)) (1/2) s2) as (b & s3 & x & E3 & X & J3).
    - split; [reflexivity|lra].
    - replace (s_len s2) with (3/5) by congruence. lra.
    - congruence.
    - congruence.
    - congruence.
    - exists (1/2). split; [lra|exact J2].
    - rewrite E3. cbn [obind]. eapply fork_modes; [exact J3|]. cbn. lra. }
  destruct E as (b & s & E). exists b, s. split; [exact E|].
  destruct (C132_bisection_accuracy exFork (exOpts (Datatypes.S (Datatypes.S n))) forkPath 1 0 (fp (1/2)) (1/2) 0 (exSt R2 (R * R * R) (3/5)) b s) as (r & R1 & R2).
  - left; reflexivity.
  - cbn; lia.
  - reflexivity.
  - reflexivity.
  - cbn; lra.
  - split; [reflexivity|lra].
  - exists [1; 1 - 1/2 - - 0 * - 0 / 1]. split; [exists (1, - 0, 1 - 1/2); split; [reflexivity|left; split; reflexivity]|]. cbn. destruct (Rlt_dec 1 0); [lra|]. destruct (Rlt_dec _ 0); [lra|reflexivity].
  - cbn; lra.
  - apply fork_passes.
  - exact E.
  - exists r. split; [eapply Rle_trans; [exact R1|]; right; cbn [s_len exSt]; field; apply pow_nonzero; lra|].
    destruct R2 as [R2|(x & ref & _ & _ & _ & R2)]; [cbn in R2; lia|]. pose proof (Rabs_pos (x / ref)). lra.
Qed.
