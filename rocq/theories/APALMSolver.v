(** The arc-length solvers of ALMBase.v as seen from gsAPALM: the instance of [ALM]
    (APALMWorker.v) for m_ALM = gsALMRiks or gsALMCrisfield. The other two methods do not
    implement distance() (gsALMBase.h l.211-214) and cannot be used with gsAPALM. *)
From Verif Require Import VS Status ALMBase ALMBaseProofs ALMStep ALMSingular APALMWorker.
Local Open Scope R_scope.

Section Solver.
Context {S : VS} {Mat : Type}.
Notation st := (st S Mat).
Variable p : problem S Mat.
Variable o : opts.
Variable k : kind.

(** what leaves a call: its value with the state, or what stops the program *)
Definition returned {A} (x : out S Mat A) : result (A * st) :=
  match x with Ret a s => Ok (a, s) | Exc e _ => Fail e end.
(** m_ALM->step(), gsAPALM.hpp l.971 and l.1070 *)
Definition solverStep (s : st) : result (status * st) :=
  do (_, s') <- returned (step p o k s); Ok (s_stat s', s').
(** gsAPALM.hpp l.985-995 *)
Definition solverSpot (start : S * R) (s : st) : result (st * bool) :=
  do (_, s) <- returned (computeStability p o (o_quasi o) s);
  if stabilityChange s then
    do (b, s) <- returned (isBifurcation p o false s);
    if (b : bool) then
      do (_, s) <- returned (computeSingularPoint p o k (fst start) (snd start) false false false s);
      Ok (s, true)
    else Ok (s, false)
  else Ok (s, false).
(** m_ALM->switchBranch(), gsAPALM.hpp l.1006 *)
Definition solverSwitch (s : st) : result st := do (_, s) <- returned (switchBranch o s); Ok s.
(** distance(DeltaU,DeltaL), gsAPALM.hpp l.997-999, l.1086-1089, l.1126-1136; for the methods
    without distance() the value is meaningless *)
Definition solverDistance (s : st) (a b : S * R) : R :=
  match distance p k (fst b -v fst a) (snd b - snd a) s with Some d => d | None => 0 end.
Definition solverALM : ALM (S * R) := {|
  alm_state := st;
  alm_setLength := setLength;
  alm_getLength := s_len;
  alm_setSolution u := setSolution (fst u) (snd u);
  alm_setPrevious u := setPrevious (fst u) (snd u);
  alm_solution s := (s_U s, s_L s);
  alm_step := solverStep;
  alm_distance := solverDistance;
  alm_spot := solverSpot;
  alm_switchBranch := solverSwitch |}.

(** the assertion on the directions of the reference and the solution, gsAPALM.hpp l.1123-1124;
    normalized() of the zero vector is the zero vector *)
Definition normalized (u : S) : S := if Reqb (dot u u) 0 then u else (1 / norm u) *v u.
Definition mirrored (ref x : S * R) : bool := negb (Rltb (- (8/10)) (dot (normalized (fst ref)) (normalized (fst x)))).

Lemma solver_laws : almLaws solverALM.
Proof. constructor; try reflexivity. intros [u l] s. reflexivity. Qed.
End Solver.

Lemma not_mirrored (ref x : VS_R * R) : 0 < fst ref -> 0 < fst x -> mirrored ref x = false.
Proof.
  assert (N : forall u : VS_R, 0 < u -> normalized u = 1).
  { intros u Hu. unfold normalized. cbn. rewrite (proj2 (Reqb_false (u * u) 0)) by nra. unfold norm. cbn. rewrite sqrt_square by lra. field. lra. }
  intros H1 H2. unfold mirrored. rewrite !N by assumption. cbn. rewrite (proj2 (Rltb_true _ _)) by lra. reflexivity.
Qed.

(** ** A step without guess leaves no guess *)
Section Guess.
Context {S : VS} {Mat : Type}.
Variable p : problem S Mat.
Variable o : opts.
Implicit Types s : st S Mat.
Ltac cases := repeat (match goal with |- context [match ?x with _ => _ end] => destruct x end; cbn [obind outSt]).
Tactic Notation "kb" ident(s1) ident(K) := apply (bind_proj s_guess); [|intros ? s1 _ K].

Lemma keep4_guess s s' : keep4 s' = keep4 s -> s_guess s' = s_guess s.
Proof. intros H. injection H. auto. Qed.
Lemma keep3_guess s s' : keep3 s' = keep3 s -> s_guess s' = s_guess s.
Proof. intros H. injection H. auto. Qed.
Lemma predictor_guess k s : s_guess (outSt (predictor p o k s)) = s_guess s.
Proof.
  unfold predictor. kb s1 K1; [apply keep4_guess, stepJacobian_keep|]. rewrite <- K1. destruct k.
  - cbv zeta. set (s1' := set_DL _ _). change (s_guess s1) with (s_guess s1'). kb s2 K2; [apply keep4_guess, computeUt_keep|]. exact K2.
  - destruct (Nat.eqb (p_numDof p) 0); [reflexivity|]. cbv zeta. set (s1' := set_phi _ s1). change (s_guess s1) with (s_guess s1').
    kb s2 K2; [|exact K2]. unfold firstPredictor, secantPredictor, solveSystem. cases; reflexivity.
  - kb s2 K2; [apply keep4_guess, computeUt_keep|]. rewrite <- K2. kb s3 K3.
    + unfold defaultPhi. cases; reflexivity.
    + destruct (o_angle o); exact K3.
  - kb s2 K2; [unfold firstPredictor, secantPredictor, solveSystem; cases; reflexivity|]. rewrite <- K2.
    kb s3 K3; [unfold defaultPhi; cases; reflexivity|]. exact K3.
Qed.
Lemma norms_guess s : s_guess (computeResidualNorms p s) = s_guess s.
Proof. unfold computeResidualNorms. cases; reflexivity. Qed.
Lemma stepLoop_guess k : forall n i s, s_guess (outSt (stepLoop p o k n i s)) = s_guess s.
Proof.
  induction n as [|n IH]; intros i s; [reflexivity|]. cbn [stepLoop]. cbv zeta.
  change (s_guess s) with (s_guess (set_numIt i s)). set (s0 := set_numIt i s). clearbody s0. clear s.
  kb s1 K1; [destruct (newJacobian o i); [apply keep4_guess, quasiNewtonIteration_keep|reflexivity]|].
  rewrite <- K1. kb s2 K2; [apply keep3_guess, iteration_keep|].
  rewrite <- K2. kb s3 K3; [apply keep4_guess, computeStability_keep|].
  rewrite <- K3. kb s4 K4; [apply keep4_guess, computeResidual_keep|].
  rewrite <- K4, <- (norms_guess s4). kb s5 K5; [destruct (o_verbose o); [apply keep4_guess, stepOutput_keep|reflexivity]|].
  rewrite <- K5. destruct (convergedTest o s5).
  - unfold iterationFinish, computeLength. destruct k; try destruct (o_angle o); cases; reflexivity.
  - destruct n; [reflexivity|]. apply IH.
Qed.
Lemma step_guess k s : s_guess s = None -> s_guess (outSt (step p o k s)) = None.
Proof.
  intros G. assert (H : s_guess (outSt (step_ p o k s)) = s_guess s).
  { unfold step_. destruct (negb (s_initialized s)); [reflexivity|]. fold (started k s). cbv zeta.
    rewrite <- (started_guess k s). set (s0 := started k s) in *.
    assert (G0 : s_guess s0 = None) by (unfold s0; rewrite started_guess; exact G).
    kb s1 K1; [unfold predict; rewrite G0, predictor_guess; exact G0|]. rewrite <- K1.
    kb s2 K2; [apply keep4_guess, computeResidual_keep|]. rewrite <- K2, <- (norms_guess s2).
    kb s3 K3; [destruct (o_verbose o); [apply keep4_guess, stepOutput_keep|reflexivity]|]. rewrite <- K3.
    kb s4 K4; [destruct (o_quasi o); [apply keep4_guess, quasiNewtonPredictor_keep|reflexivity]|].
    rewrite <- K4. rewrite stepLoop_guess. reflexivity. }
  unfold step. rewrite <- G, <- H. destruct (step_ p o k s) as [[] s1|e s1]; [reflexivity|]. destruct (statusOf e); reflexivity.
Qed.
End Guess.
