(** A failed arc-length step that is repeated at once, and the loops of the tutorials: C127, C128. *)
From Verif Require Import VS Status RunTac ALMBase ALMBaseProofs ALMStep ALMLog ALMPoints ALMRun ALMRestart APALMSolver Props_ALMStep Props_ALMRestart Props_ALMLoop ALMLoop5.
Local Open Scope R_scope.

(** ** What a failed step does to the step before it *)
Section Old.
Context {S : VS} {Mat : Type}.
Variables (p : problem S Mat) (o : opts) (k : kind).
Hypothesis Hang : k = Crisfield -> o_angle o = AngStep.
Implicit Types s : st S Mat.
Definition old s := (s_DUold s, s_DLold s).
Definition onExc {A X} (T : st S Mat -> X) s (x : out S Mat A) : Prop := forall e s', x = Exc e s' -> T s' = T s.
Lemma exc_bind {A B X} (T : st S Mat -> X) s (x : out S Mat A) (f : A -> st S Mat -> out S Mat B) :
  T (outSt x) = T s -> (forall a s1, x = Ret a s1 -> T s1 = T s -> onExc T s (f a s1)) -> onExc T s (obind x f).
Proof.
  intros H K e s' E. destruct x as [a s1|e1 s1]; cbn in *; [exact (K a s1 eq_refl H e s' E)|]. injection E as <- <-. exact H.
Qed.
Lemma exc_of {A X} (T : st S Mat -> X) s (x : out S Mat A) : T (outSt x) = T s -> onExc T s x.
Proof. intros H e s' ->. exact H. Qed.
Ltac cases := repeat (match goal with |- context [match ?x with _ => _ end] => destruct x end; cbn [obind outSt]).
Lemma keep4_old s s' : keep4 s' = keep4 s -> old s' = old s.
Proof. intros H. unfold old. injection H. congruence. Qed.
Tactic Notation "ob" ident(s1) ident(K) := apply (bind_proj old); [|intros ? s1 _ K].
Tactic Notation "eb" ident(s1) ident(K) := apply (exc_bind old); [|intros ? s1 _ K].
Lemma computeLambdas_old s : old (outSt (computeLambdas p s)) = old s.
Proof. unfold computeLambdas, computeLambdasComplex, computeLambdaDOT. cases; reflexivity. Qed.
Lemma predictor_old s : old (outSt (predictor p o k s)) = old s.
Proof.
  unfold predictor. ob s1 K1; [apply keep4_old, stepJacobian_keep|]. rewrite <- K1. destruct k.
  - cbv zeta. set (s1' := set_DL _ _). change (old s1) with (old s1'). ob s2 K2; [apply keep4_old, computeUt_keep|]. exact K2.
  - destruct (p_numDof p =? 0)%nat; [reflexivity|]. cbv zeta. set (s1' := set_phi _ _). change (old s1) with (old s1').
    ob s2 K2; [unfold firstPredictor, secantPredictor, solveSystem; cases; reflexivity|]. exact K2.
  - ob s2 K2; [apply keep4_old, computeUt_keep|]. rewrite <- K2. ob s3 K3; [unfold defaultPhi, computeLambdaMU; cases; reflexivity|]. rewrite (Hang eq_refl). exact K3.
  - ob s2 K2; [unfold firstPredictor, secantPredictor, solveSystem; cases; reflexivity|]. rewrite <- K2.
    ob s3 K3; [unfold defaultPhi; cases; reflexivity|]. exact K3.
Qed.
Lemma iteration_old s : old (outSt (iteration p o k s)) = old s.
Proof.
  unfold iteration. ob s1 K1; [apply keep4_old, computeUbar_keep|]. rewrite <- K1. destruct k.
  - reflexivity.
  - destruct (rdiv _ _); reflexivity.
  - ob s2 K2; [apply computeLambdas_old|]. rewrite (Hang eq_refl). destruct (_ && _); exact K2.
  - destruct (rdiv _ _); reflexivity.
Qed.
Lemma norms_old s : old (computeResidualNorms p s) = old s.
Proof. unfold computeResidualNorms. cases; reflexivity. Qed.
(** with the number of iterations, which computeLength divides by *)
Definition oldn s := (old s, s_numIt s).
Lemma keep4_oldn s s' : keep4 s' = keep4 s -> oldn s' = oldn s.
Proof. intros H. unfold oldn, old. injection H. congruence. Qed.
Lemma iteration_oldn s : oldn (outSt (iteration p o k s)) = oldn s.
Proof. unfold oldn. f_equal; [apply iteration_old|]. pose proof (iteration_keep p o k s) as H. injection H. auto. Qed.
Lemma norms_oldn s : oldn (computeResidualNorms p s) = oldn s.
Proof. unfold computeResidualNorms. cases; reflexivity. Qed.
Lemma exc_bindn {A B} s (x : out S Mat A) (f : A -> st S Mat -> out S Mat B) :
  oldn (outSt x) = oldn s -> (forall a s1, oldn s1 = oldn s -> onExc old s (f a s1)) -> onExc old s (obind x f).
Proof.
  intros H K e s' E. destruct x as [a s1|e1 s1]; cbn in *; [exact (K a s1 H e s' E)|]. injection E as <- <-. unfold oldn in H. congruence.
Qed.
Lemma stepLoop_old : forall n i s, (1 <= i)%nat -> onExc old s (stepLoop p o k n i s).
Proof.
  induction n as [|n IH]; intros i s Hi; [discriminate|]. cbn [stepLoop]. cbv zeta.
  change (onExc (A := unit) old s) with (onExc (A := unit) old (set_numIt i s)). assert (HN : s_numIt (set_numIt i s) = i) by reflexivity. set (s0 := set_numIt i s) in *. clearbody s0. clear s.
  apply exc_bindn; [destruct (newJacobian o i); [apply keep4_oldn, quasiNewtonIteration_keep|reflexivity]|intros _ s1 K1].
  apply exc_bindn; [rewrite <- K1; apply iteration_oldn|intros _ s2 K2].
  apply exc_bindn; [rewrite <- K2; apply keep4_oldn, computeStability_keep|intros _ s3 K3].
  apply exc_bindn; [rewrite <- K3; apply keep4_oldn, computeResidual_keep|intros _ s4 K4].
  apply exc_bindn; [rewrite <- K4, <- (norms_oldn s4); destruct (o_verbose o); [apply keep4_oldn, stepOutput_keep|reflexivity]|intros _ s5 K5].
  assert (N5 : s_numIt s5 = i) by (unfold oldn in K5; congruence).
  destruct (convergedTest o s5).
  - destruct (s_adaptive _); [|discriminate]. unfold computeLength. replace (s_numIt (iterationFinish o k s5)) with i.
    + destruct (Nat.eqb_spec i 0); [lia|]. discriminate.
    + rewrite <- N5. unfold iterationFinish. destruct k; try destruct (o_angle o); reflexivity.
  - apply (f_equal fst) in K5. cbn [fst oldn] in K5. destruct n.
    + intros e s' H. injection H as _ <-. exact K5.
    + intros e s' H. rewrite <- K5. exact (IH (Datatypes.S i) s5 ltac:(lia) e s' H).
Qed.
Lemma step_old s : s_guess s = None -> onExc old s (step_ p o k s).
Proof.
  intros G. unfold step_. destruct (negb (s_initialized s)); [intros e s' H; injection H as _ <-; reflexivity|]. cbv zeta. set (s0 := initiateStep k _).
  assert (E0 : old s0 = old s /\ s_guess s0 = None) by (split; [|rewrite <- G]; destruct k; reflexivity). destruct E0 as [E0 G0].
  intros e s' H. rewrite <- E0. revert e s' H. change (onExc old s0 (obind (predict p o k s0) (fun _ s => obind (computeResidual p s) (fun _ s => obind (if o_verbose o then stepOutput p o (computeResidualNorms p s) else Ret tt (computeResidualNorms p s))
    (fun _ s => obind (if o_quasi o then quasiNewtonPredictor p k s else Ret tt s) (fun _ s => stepLoop p o k (o_maxIt o - 1) 1 (set_stabPrev (s_stab s) s))))))).
  eb s1 K1; [unfold predict; rewrite G0; apply predictor_old|].
  eb s2 K2; [rewrite <- K1; apply keep4_old, computeResidual_keep|].
  eb s3 K3; [rewrite <- K2, <- (norms_old s2); destruct (o_verbose o); [apply keep4_old, stepOutput_keep|reflexivity]|].
  eb s4 K4; [rewrite <- K3; destruct (o_quasi o); [apply keep4_old, quasiNewtonPredictor_keep|reflexivity]|].
  intros e s' H. rewrite <- K4. exact (stepLoop_old _ 1 _ ltac:(lia) e s' H).
Qed.
(** a failed step leaves all that the next step reads *)
Lemma failed_core s s' : s_guess s = None -> step p o k s = Ret tt s' -> s_stat s' <> Success -> core s' = core s.
Proof.
  intros G H F. destruct (step_outcome p o k s s' H) as [(_ & K)|[(A & _)|(A & _)]]; [|congruence..].
  assert (O : old s' = old s).
  { unfold step in H. destruct (step_ p o k s) as [[] s1|e s1] eqn:E; [injection H as <-; cbn in F; congruence|].
    destruct (statusOf e); [|discriminate]. injection H as <-. exact (step_old s G e s1 E). }
  pose proof (step_guess p o k s G) as G'. rewrite H in G'. cbn in G'. unfold core. unfold old in O. unfold keep1 in K. congruence.
Qed.
End Old.

(** ** C127 *)
(** A step that failed fails again with the same status, as often as it is called, and leaves the
    point and the length as they are. *)
Theorem C127_again {S : VS} {Mat : Type} (p : problem S Mat) (o : opts) (k : kind) (s s' : st S Mat) :
  o_bif o <> BifUnknown -> forgets p o k -> (k = Crisfield -> o_angle o = AngStep) ->
  s_guess s = None -> step p o k s = Ret tt s' -> s_stat s' <> Success ->
  forall n, exists s'', Nat.iter n (fun x => obind x (fun _ => step p o k)) (Ret tt s') = Ret tt s'' /\
    s_stat s'' = s_stat s' /\ s_U s'' = s_U s /\ s_L s'' = s_L s /\ s_len s'' = s_len s /\ s_Uprev s'' = s_Uprev s /\ s_Lprev s'' = s_Lprev s.
Proof.
  intros HB HF HA HG H F n.
  assert (P : forall t, s_guess t = None -> s_initialized t = s_initialized t -> (ownPhi o k -> s_phi (outSt (step_ p o k t)) = s_phi t)).
  { intros t G _ [U W]. apply (step_phi p o U); [destruct W as [->| ->]; discriminate|exact G]. }
  enough (E : exists s'', Nat.iter n (fun x => obind x (fun _ => step p o k)) (Ret tt s') = Ret tt s'' /\ s_stat s'' = s_stat s' /\ R0 o k s s'').
  { destruct E as (s'' & E1 & E2 & (E3 & _)). exists s''. unfold core in E3. split; [exact E1|]. split; [exact E2|]. repeat split; congruence. }
  induction n as [|n (t & I1 & I2 & I3)].
  - exists s'. split; [reflexivity|]. split; [reflexivity|]. split; [symmetry; apply (failed_core p o k HA s s' HG H F)|]. split; [exact HG|]. intros U. specialize (P s HG eq_refl U).
    unfold step in H. destruct (step_ p o k s) as [[] s1|e s1]; [injection H as <-; symmetry; exact P|]. destruct (statusOf e); [|discriminate]. injection H as <-. symmetry. exact P.
  - change (Nat.iter (Datatypes.S n) ?f ?x) with (f (Nat.iter n f x)). cbv beta. rewrite I1. cbn [obind]. pose proof (R0_step p o k HB HF s t I3) as R. rewrite H in R.
    destruct (step p o k t) as [[] t1|] eqn:Et; [|contradiction]. destruct R as (R1 & R2 & _). exists t1. split; [reflexivity|]. split; [congruence|].
    pose proof (failed_core p o k HA s s' HG H F) as C. destruct R2 as (C2 & G2 & P2). split; [congruence|]. split; [exact HG|]. intros U. rewrite <- (P2 U). specialize (P s HG eq_refl U).
    unfold step in H. destruct (step_ p o k s) as [[] s1|e s1]; [injection H as <-; symmetry; exact P|]. destruct (statusOf e); [|discriminate]. injection H as <-. symmetry. exact P.
Qed.
Print Assumptions C127_again.
(** Load control beyond u = 1, where the residual cannot be assembled: from (2/3, 4/3) the step of 4/3
    fails, and fails again. *)
Example C127_example : exists s s', step limited (exOpts 5) LoadControl (exSt VS_R R (4/3)) = Ret tt s /\ s_stat s = Success /\ s_U s = 2/3 /\
  step limited (exOpts 5) LoadControl s = Ret tt s' /\ s_stat s' = AssemblyError /\ s_guess s = None /\
  o_bif (exOpts 5) <> BifUnknown /\ forgets limited (exOpts 5) LoadControl.
Proof.
  do 2 eexists. split; [ev|]. split; [reflexivity|]. split; [rcbv; lra|]. split; [ev|]. split; [reflexivity|]. split; [reflexivity|].
  split; [discriminate|]. split; discriminate.
Qed.

(** ** C128 *)
Section Files.
Context {S : VS} {Mat : Type}.
Variables (p : problem S Mat) (o : opts) (k : kind).
(** what is written from the point (u, l) on: either the ends of steps that succeeded within the
    tolerances, or, after a step that failed, that point for ever *)
Inductive walk : S -> R -> list S -> Prop :=
  | walk_end u l : walk u l []
  | walk_stuck u l s s' n : s_U s = u -> s_L s = l -> step p o k s = Ret tt s' -> s_stat s' <> Success -> walk u l (repeat u (Datatypes.S n))
  | walk_step s s' evs v m pts r files : step p o k s = Ret tt s' -> s_stat s' = Success ->
      (* (v, m) is the trial point of the step *)
      s_log s' = s_log s ++ evs -> points evs = (v, m) :: pts ++ [(s_U s', s_L s')] ->
      p_residual p (s_U s') (s_L s') = Some r -> norm r < o_tolF o * norm (m *v p_F p) ->
      norm (s_U s' -v fst (last pts (v, m))) < o_tolU o * norm (v -v s_U s) ->
      walk (s_U s') (s_L s') files -> walk (s_U s) (s_L s) (s_U s' :: files).
Lemma fileRun_more : forall n s files x s', fileRun p o k n s files = Ret x s' -> forall q, fileRun p o k n s (q ++ files) = Ret (q ++ x) s'.
Proof.
  induction n as [|n IH]; intros s files x s' H q; cbn [fileRun] in *; [injection H as <- <-; reflexivity|].
  destruct (step p o k s) as [[] s1|]; [|discriminate]. rewrite <- app_assoc. exact (IH _ _ _ _ H q).
Qed.
Lemma fileRun_one n s s1 files r : step p o k s = Ret tt s1 -> fileRun p o k n s1 (files ++ [s_U s1]) = r -> fileRun p o k (Datatypes.S n) s files = r.
Proof. intros E <-. cbn [fileRun]. rewrite E. reflexivity. Qed.
Lemma fileRun_app : forall n s files x s', fileRun p o k n s files = Ret x s' -> exists new, x = files ++ new /\ fileRun p o k n s [] = Ret new s'.
Proof.
  induction n as [|n IH]; intros s files x s' H; cbn [fileRun] in *.
  - injection H as <- <-. exists []. rewrite app_nil_r. auto.
  - destruct (step p o k s) as [[] s1|]; [|discriminate]. cbn [app] in *. destruct (IH _ _ _ _ H) as (new & -> & E). exists (s_U s1 :: new). rewrite <- app_assoc. split; [reflexivity|].
    exact (fileRun_more _ _ _ _ _ E [s_U s1]).
Qed.
Hypothesis HB : o_bif o <> BifUnknown.
Hypothesis HF : forgets p o k.
Hypothesis HA : k = Crisfield -> o_angle o = AngStep.
Hypothesis HM : (2 <= o_maxIt o)%nat.
Lemma stuck_files n : forall s t s', R0 o k s t -> step p o k s = Ret tt s' -> s_stat s' <> Success -> exists t', fileRun p o k n t [] = Ret (repeat (s_U s) n) t' /\ s_U t' = s_U s /\ s_L t' = s_L s.
Proof.
  induction n as [|n IH]; intros s t s' R H F.
  - exists t. destruct R as (C & _). unfold core in C. cbn. repeat split; congruence.
  - pose proof (R0_step p o k HB HF s t R) as Q. rewrite H in Q. destruct (step p o k t) as [[] t1|] eqn:Et; [|contradiction]. destruct Q as (Q1 & Q2 & _).
    pose proof (failed_core p o k HA s s' (proj1 (proj2 R)) H F) as C.
    assert (RR : R0 o k s t1).
    { destruct Q2 as (C2 & G2 & P2). split; [congruence|]. split; [exact (proj1 (proj2 R))|]. intros U. rewrite <- (P2 U). destruct U as [U W].
      assert (K : k <> Riks) by (destruct W as [->| ->]; discriminate). pose proof (step_phi p o U k s K (proj1 (proj2 R))) as P. unfold step in H.
      destruct (step_ p o k s) as [[] s1|e s1]; [injection H as <-; symmetry; exact P|]. destruct (statusOf e); [|discriminate]. injection H as <-. symmetry. exact P. }
    destruct (IH s t1 s' RR H F) as (t' & E1 & E2). exists t'. split; [|exact E2]. cbn [fileRun repeat]. rewrite Et. cbn [app].
    assert (EU : s_U t1 = s_U s) by (destruct RR as (C1 & _); unfold core in C1; congruence). rewrite EU.
    exact (fileRun_more _ _ _ _ _ E1 [s_U s]).
Qed.
Lemma R0_refl (s : st S Mat) : s_guess s = None -> R0 o k s s.
Proof. intros G. split; [reflexivity|]. split; [exact G|]. reflexivity. Qed.
Lemma walk_run : forall n s files s', s_guess s = None -> fileRun p o k n s [] = Ret files s' -> length files = n /\ walk (s_U s) (s_L s) files.
Proof.
  induction n as [|n IH]; intros s files s' G H.
  - cbn in H. injection H as <- _. split; [reflexivity|constructor].
  - destruct (step p o k s) as [[] s1|] eqn:E; [|cbn [fileRun] in H; rewrite E in H; discriminate].
    destruct (status_eqb (s_stat s1) Success) eqn:ES.
    + apply status_eqb_true in ES. cbn [fileRun] in H. rewrite E in H. destruct (fileRun_app _ _ _ _ _ H) as (new & -> & H1).
      pose proof (step_guess p o k s G) as G1. rewrite E in G1. destruct (IH _ _ _ G1 H1) as (L & W). split; [cbn; congruence|].
      destruct (C24_success_meets_tolerances_partial p o k s s1 HM E ES) as (evs & v & m & pts & r & A1 & A2 & A3 & _ & A5 & _ & A7).
      exact (walk_step s s1 evs v m pts r new E ES A1 A2 A3 A5 A7 W).
    + assert (F : s_stat s1 <> Success) by (intros Z; rewrite Z in ES; discriminate).
      destruct (stuck_files (Datatypes.S n) s s s1 (R0_refl s G) E F) as (t' & E1 & _). rewrite E1 in H. injection H as <- _. split; [exact (repeat_length (s_U s) (Datatypes.S n))|].
      exact (walk_stuck _ _ s s1 n eq_refl eq_refl E F).
Qed.
End Files.
(** The tutorials write [n] files. They are the ends of steps that succeeded, until a step fails; all
    files from then on are copies of the last one. *)
Theorem C128_files_partial {S : VS} {Mat : Type} (p : problem S Mat) (o : opts) (k : kind) (n : nat) (s s' : st S Mat) (files : list S) :
  o_bif o <> BifUnknown -> forgets p o k -> (k = Crisfield -> o_angle o = AngStep) -> (2 <= o_maxIt o)%nat ->
  s_guess s = None -> fileRun p o k n s [] = Ret files s' -> length files = n /\ walk p o k (s_U s) (s_L s) files.
Proof. intros HB HF HA HM G H. exact (walk_run p o k HB HF HA HM n s files s' G H). Qed.
Print Assumptions C128_files_partial.
Example C128_example : exists s' files, fileRun limited (exOpts 5) LoadControl 3 (exSt VS_R R (4/3)) [] = Ret files s' /\ files = [2/3; 2/3; 2/3].
Proof.
  do 2 eexists. split.
  - do 3 (eapply fileRun_one; [ev|]). reflexivity.
  - rcbv. reflexivity.
Qed.
(** So the files need not be solutions: here no step succeeds, and the tutorial writes the starting
    point, at which the residual is 1 for the load factor 0. *)
Theorem C128_refuted : exists s', fileRun stuck (exOpts 5) Crisfield 2 (exSt VS_R R 3) [] = Ret [0 : VS_R; 0 : VS_R] s' /\ s_L s' = 0 /\ p_residual stuck (0 : VS_R) 0 = Some 1.
Proof.
  eexists. split; [|split].
  - do 2 (eapply fileRun_one; [ev|]). cbn. reflexivity.
  - reflexivity.
  - cbn. f_equal. lra.
Qed.
Print Assumptions C128_refuted.
