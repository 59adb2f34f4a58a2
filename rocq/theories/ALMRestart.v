(** What step() takes from the state of the solver: two solvers that agree on the solution, the previous solution, the step before, the
    length and the settings make the same step. *)
From Verif Require Import VS Status ALMBase ALMBaseProofs.
Local Open Scope R_scope.

Section Restart.
Context {S : VS} {Mat : Type}.
Notation st := (st S Mat).
Variable p : problem S Mat.
Variable o : opts.
Implicit Types s t : st.

(** what is set from outside and by the end of a step *)
Definition core s := (s_U s, s_L s, s_Uprev s, s_Lprev s, s_DUold s, s_DLold s, s_guess s, (s_len s, s_lenPrev s, s_lenOri s, s_adaptive s, s_desired s), s_initialized s).
Definition opt {A} (b : bool) (x : A) : option A := if b then Some x else None.
(** what is read within a step; [f]: m_phi, [q]: m_deltaUt, [r]: the residual with its basis *)
Definition live (f q r : bool) s := (core s, (s_DU s, s_DL s, s_dU s, s_dL s, s_numIt s), (s_jac s, s_fact s), opt f (s_phi s), opt q (s_dUt s), opt r (s_resVec s, s_basF s, s_basU s)).

Definition rel {A B} (L : st -> A) (x y : out S Mat B) : Prop :=
  match x, y with
  | Ret a s, Ret b t => a = b /\ L s = L t
  | Exc e s, Exc e' t => e = e' /\ core s = core t
  | _, _ => False
  end.
Lemma rel_bind {A A' B C} (L : st -> A) (L' : st -> A') (x y : out S Mat B) (f g : B -> st -> out S Mat C) :
  rel L x y -> (forall a s t, L s = L t -> rel L' (f a s) (g a t)) -> rel L' (obind x f) (obind y g).
Proof. destruct x, y; cbn; try tauto. intros [-> H] K. apply K, H. Qed.

Ltac both := repeat match goal with
  | H : (_, _) = (_, _) |- _ => injection H; clear H; intros; subst
  | H : Some _ = Some _ |- _ => injection H; clear H; intros; subst
  end.
Ltac open s t H := destruct s, t; unfold live, core in H; cbn in H; both.
Ltac inner x := lazymatch x with context [match ?y with _ => _ end] => inner y | _ => destruct x end.
Ltac cases := repeat (match goal with |- context [match ?x with _ => _ end] => inner x end; cbn).
Ltac same := cbn; cases; unfold live, core; cbn; try (split; congruence); try congruence.

Definition liveN (f q : bool) s := (live f q true s, s_resF s, s_resU s).
Lemma live_drop f q r s t : live f q r s = live f q r t -> live f q false s = live f q false t.
Proof. unfold live. intros H. apply (f_equal fst) in H. cbn [fst] in H. cbn [opt]. f_equal. exact H. Qed.
Lemma live_core f q r s t : live f q r s = live f q r t -> core s = core t.
Proof. unfold live. intros H. do 5 apply (f_equal fst) in H. exact H. Qed.

Lemma computeResidual_rel f q r s t : live f q r s = live f q r t ->
  rel (fun s => (live f q r s, s_resVec s)) (computeResidual p s) (computeResidual p t).
Proof. intros H. destruct r; open s t H; unfold computeResidual, computeResidualAt; same. Qed.
Lemma norms_first f q s t : (live f q false s, s_resVec s) = (live f q false t, s_resVec t) -> s_numIt s = 0%nat ->
  liveN f q (computeResidualNorms p s) = liveN f q (computeResidualNorms p t).
Proof. intros H N. open s t H; cbn in *; subst; unfold computeResidualNorms, liveN; same. Qed.
Lemma norms_next f q s t : (live f q true s, s_resVec s) = (live f q true t, s_resVec t) -> s_numIt s <> 0%nat ->
  liveN f q (computeResidualNorms p s) = liveN f q (computeResidualNorms p t).
Proof. intros H N. open s t H; cbn in *; subst; unfold computeResidualNorms, liveN; cbn; destruct s_numIt0; try congruence; same. Qed.
(** the Jacobian of the next matrix; [d], [d']: the increments it is given *)
Lemma stepJacobian_rel f q r s t : live f q r s = live f q r t -> rel (live f q r) (stepJacobian p s) (stepJacobian p t).
Proof. intros H. open s t H; unfold stepJacobian, refreshJacobian, computeJacobianAt, factorizeMatrix; same. Qed.
Lemma computeUt_rel f q r s t : live f q r s = live f q r t -> rel (live f true r) (computeUt p s) (computeUt p t).
Proof. intros H. open s t H; unfold computeUt, solveSystem; same. Qed.
Lemma computeUbar_rel f q s t : live f q true s = live f q true t -> rel (fun s => (live f q true s, s_dUbar s)) (computeUbar p s) (computeUbar p t).
Proof. intros H. open s t H; unfold computeUbar, solveSystem; same. Qed.
(** the outcomes agree on [L], with or without an exception *)
Definition relB {A B} (L : st -> A) (x y : out S Mat B) : Prop :=
  match x, y with
  | Ret a s, Ret b t => a = b /\ L s = L t
  | Exc e s, Exc e' t => e = e' /\ L s = L t
  | _, _ => False
  end.
Lemma relB_bind {A B C} (L : st -> A) (x y : out S Mat B) (f g : B -> st -> out S Mat C) :
  relB L x y -> (forall a s t, L s = L t -> relB L (f a s) (g a t)) -> relB L (obind x f) (obind y g).
Proof. destruct x, y; cbn; try tauto. intros [-> H] K. apply K, H. Qed.
Hypothesis Hbif : o_bif o <> BifUnknown.
Lemma stabilityVec_rel f q s t : live f q true s = live f q true t -> relB (live f q true) (stabilityVec p o s) (stabilityVec p o t).
Proof.
  intros H. unfold stabilityVec, factorizeMatrix. destruct (o_bif o); [| | |congruence]; [|destruct (o_ldlt o)|]; open s t H; same.
Qed.
Lemma computeStability_rel f q s t : live f q true s = live f q true t -> relB (live f q true) (computeStability p o false s) (computeStability p o false t).
Proof.
  intros H. assert (K : relB (live f q true) (computeStability_ p o (s_U s) false s) (computeStability_ p o (s_U t) false t)).
  { unfold computeStability_. cbn [obind]. apply relB_bind; [apply stabilityVec_rel, H|]. clear s t H. intros v s t H. cbv zeta.
    destruct (minCoeff v); split; try reflexivity; exact H. }
  unfold computeStability. destruct (computeStability_ p o (s_U s) false s), (computeStability_ p o (s_U t) false t); try contradiction; destruct K as [E K].
  - split; [reflexivity|exact K].
  - rewrite <- E. destruct (statusOf e); split; try reflexivity; exact K.
Qed.
Lemma relB_rel {B} f q (x y : out S Mat B) : relB (live f q true) x y -> rel (live f q true) x y.
Proof. destruct x, y; cbn; auto. intros [-> H]. split; [reflexivity|]. apply (live_core _ _ _ _ _ H). Qed.
Lemma computeStability_N f q s t : liveN f q s = liveN f q t -> rel (liveN f q) (computeStability p o false s) (computeStability p o false t).
Proof.
  intros H. assert (H1 : live f q true s = live f q true t) by (apply (f_equal fst), (f_equal fst) in H; exact H).
  pose proof (computeStability_keepR p o s) as K. pose proof (computeStability_keepR p o t) as K'.
  pose proof (computeStability_rel f q s t H1) as R. unfold liveN, keepR in *.
  assert (H2 : s_resF s = s_resF t) by congruence. assert (H3 : s_resU s = s_resU t) by congruence. clear H.
  destruct (computeStability p o false s), (computeStability p o false t); try contradiction; destruct R as [R1 R2]; cbn in K, K'.
  - split; [exact R1|]. injection K as _ -> ->. injection K' as _ -> ->. rewrite R2, H2, H3. reflexivity.
  - split; [exact R1|]. apply (live_core _ _ _ _ _ R2).
Qed.

(** ** The methods *)
Variable k : kind.
(** m_phi has to be the same when it is the user's; it is set by the predictor otherwise *)
Definition phiNeeded : bool := match k with LoadControl | Riks => false | Crisfield | ConsistentCrisfield => o_phiUser o end.
Definition phiSet : bool := match k with LoadControl => false | _ => true end.
Definition utSet : bool := match k with LoadControl | Crisfield => true | Riks | ConsistentCrisfield => false end.
(** gsALMCrisfield does not reset m_deltaU, an argument of the Jacobian; gsALMConsistentCrisfield takes m_phi from the m_deltaUt it finds *)
Definition restartable : Prop := match k with
  | LoadControl | Riks => True
  | Crisfield => forall u d d', p_jacobian p u d = p_jacobian p u d'
  | ConsistentCrisfield => o_phiUser o = true
  end.
Hypothesis Hre : restartable.
Definition agree s t : Prop := core s = core t /\ (phiNeeded = true -> s_phi s = s_phi t).
Definition live0 s := (core s, (s_DU s, s_DL s, s_dL s, s_numIt s), opt phiNeeded (s_phi s),
    match k with Crisfield => (None, Some (s_dUt s, s_dUbar s)) | _ => (Some (s_dU s), None) end).
Definition live1 s := (live0 s, (s_jac s, s_fact s)).
Lemma start_live s t : agree s t -> live0 (initiateStep k (set_numIt 0 (set_conv false s))) = live0 (initiateStep k (set_numIt 0 (set_conv false t))).
Proof.
  intros [H HP]. assert (E : opt phiNeeded (s_phi s) = opt phiNeeded (s_phi t)) by (destruct phiNeeded; cbn [opt]; [rewrite HP|]; reflexivity).
  clear HP. unfold live0. destruct k; (destruct s, t; unfold core in *; cbn in *; both; congruence).
Qed.
Lemma jacobian_first s t : live0 s = live0 t -> rel live1 (stepJacobian p s) (stepJacobian p t).
Proof.
  intros H. assert (J : p_jacobian p (s_U s +v s_DU s) (s_dU s) = p_jacobian p (s_U t +v s_DU t) (s_dU t)).
  { unfold live0, core, restartable in *. destruct k; injection H; intros; [| |rewrite (Hre _ (s_dU s) (s_dU t))|]; congruence. }
  unfold stepJacobian, refreshJacobian, computeJacobianAt. rewrite J. destruct (p_jacobian p (s_U t +v s_DU t) (s_dU t)); cbn [obind isSome].
  - unfold factorizeMatrix. destruct (p_factor p m) eqn:EF; cbn [obind]; try rewrite EF; (split; [reflexivity|]).
    + unfold live1, live0, core in *. cbn. cbn in H. rewrite H. reflexivity.
    + unfold live0, core in *. cbn. do 3 apply (f_equal fst) in H. exact H.
  - split; [reflexivity|]. unfold live0, core in *. cbn. do 3 apply (f_equal fst) in H. exact H.
Qed.
(** after m_phi is set (Riks) *)
Lemma first_rel f r s t : live f false r s = live f false r t -> rel (live f false r) (firstPredictor p s) (firstPredictor p t).
Proof.
  intros H. unfold firstPredictor. apply (rel_bind (live f false r)); [unfold solveSystem; open s t H; same|]. clear s t H. intros x s t H. cbv zeta. cbn [s_dUt set_dUt s_DL].
  assert (E : s_DL s = s_DL t) by (unfold live, core in H; congruence). rewrite E. destruct (Rleb (dot x x + s_DL t * 1) 0); (split; [reflexivity|]).
  - apply (live_core _ _ _ _ _ H).
  - open s t H. unfold live, core. cbn. congruence.
Qed.
Lemma secant_rel f r u1 l1 u0 l0 s t : live f false r s = live f false r t -> rel (live f false r) (secantPredictor u1 l1 u0 l0 s) (secantPredictor u1 l1 u0 l0 t).
Proof.
  intros H. unfold secantPredictor. assert (E : s_lenPrev s = s_lenPrev t) by (unfold live, core in H; congruence). rewrite E. destruct (Reqb (s_lenPrev t) 0); (split; [reflexivity|]).
  - apply (live_core _ _ _ _ _ H).
  - open s t H. unfold live, core. cbn. congruence.
Qed.
Lemma scale_rel b f q r s t : live f q r s = live f q r t -> live f q r (scaleStep b s) = live f q r (scaleStep b t).
Proof. intros H. unfold scaleStep. open s t H. destruct b; unfold live, core; cbn; congruence. Qed.
Lemma lambdaMU_live s t : (core s, (s_DU s, s_DL s, s_numIt s), (s_jac s, s_fact s), s_phi s, s_dUt s) = (core t, (s_DU t, s_DL t, s_numIt t), (s_jac t, s_fact t), s_phi t, s_dUt t) ->
  live true true false (computeLambdaMU p s) = live true true false (computeLambdaMU p t).
Proof.
  intros H. assert (E : sign (dot (s_DUold s) (s_dUt s) + A0 p s * s_DLold s) = sign (dot (s_DUold t) (s_dUt t) + A0 p t * s_DLold t) /\
    dot (s_dUt s) (s_dUt s) + A0 p s = dot (s_dUt t) (s_dUt t) + A0 p t /\ s_len s = s_len t) by (unfold A0; unfold core in H; injection H; intros; repeat split; congruence).
  destruct E as (E1 & E2 & E3). unfold computeLambdaMU. cbv zeta. rewrite E1, E2, E3. generalize (if Reqb (sqrt (dot (s_dUt t) (s_dUt t) + A0 p t)) 0 then s_len t else s_len t / sqrt (dot (s_dUt t) (s_dUt t) + A0 p t)) as mu.
  generalize (sign (dot (s_DUold t) (s_dUt t) + A0 p t * s_DLold t)) as dir. clear E1 E2 E3. intros dir mu. open s t H. unfold live, core. cbn. congruence.
Qed.
Lemma predictor_rel s t : agree s t -> rel (live phiSet utSet false) (predictor p o k (initiateStep k (set_numIt 0 (set_conv false s)))) (predictor p o k (initiateStep k (set_numIt 0 (set_conv false t)))).
Proof.
  intros HA. unfold predictor. apply (rel_bind live1); [apply jacobian_first, start_live, HA|].
  clear s t HA. intros _ s t H. unfold live1, live0, phiNeeded, phiSet, utSet, restartable in *. destruct k.
  - cbv zeta. apply (rel_bind (live false true false)).
    + apply (computeUt_rel _ false). unfold core in H. injection H. intros. unfold live, core, opt. cbn. congruence.
    + clear s t H. intros _ s t H. split; [reflexivity|]. open s t H. unfold live, core. cbn. congruence.
  - destruct (Nat.eqb (p_numDof p) 0); [split; [reflexivity|]; do 4 apply (f_equal fst) in H; exact H|]. cbv zeta.
    set (phi := if Nat.eqb (p_numDof p) 1 then _ else _). clearbody phi.
    assert (H' : live true false false (set_phi phi s) = live true false false (set_phi phi t)) by (unfold core in H; injection H; intros; unfold live, core, opt; cbn; congruence). clear H. revert H'.
    generalize (set_phi phi s) as s', (set_phi phi t) as t'. clear s t. intros s t H.
    apply (rel_bind (live true false false)).
    + replace (s_U s) with (s_U t) by (unfold live, core in H; congruence). replace (s_L s) with (s_L t) by (unfold live, core in H; congruence).
      replace (s_Uprev s) with (s_Uprev t) by (unfold live, core in H; congruence). replace (s_Lprev s) with (s_Lprev t) by (unfold live, core in H; congruence).
      destruct (close _ _ _ _); [apply first_rel, H|apply secant_rel, H].
    + clear s t H. intros _ s t H. split; [reflexivity|]. apply scale_rel, H.
  - apply (rel_bind (fun s : st => (core s, (s_DU s, s_DL s, s_dL s, s_numIt s), opt (o_phiUser o) (s_phi s), (s_jac s, s_fact s), (s_dUt s, s_dUbar s)))).
    { unfold computeUt. apply (rel_bind (fun s : st => (core s, (s_DU s, s_DL s, s_dL s, s_numIt s), opt (o_phiUser o) (s_phi s), (s_jac s, s_fact s), s_dUbar s))).
      - unfold solveSystem. replace (s_fact s) with (s_fact t) by (unfold core in H; congruence). destruct (s_fact t) as [m|] eqn:EF; [|split; [reflexivity|]; do 4 apply (f_equal fst) in H; exact H].
        destruct (p_solve p m (p_F p)); cbn [isSome rel]; (split; [reflexivity|]).
        + unfold core in *. injection H; intros. cbn. congruence.
        + do 4 apply (f_equal fst) in H. exact H.
      - clear s t H. intros x s t H. split; [reflexivity|]. unfold core in *. injection H; intros. cbn. congruence. }
    clear s t H. intros _ s t H. apply (rel_bind (live true true false)).
    + replace (s_DUold s) with (s_DUold t) by (unfold core in H; congruence). replace (s_DLold s) with (s_DLold t) by (unfold core in H; congruence).
      replace (s_U s) with (s_U t) by (unfold core in H; congruence). replace (s_L s) with (s_L t) by (unfold core in H; congruence).
      replace (s_len s) with (s_len t) by (unfold core in H; congruence). replace (s_dUt s) with (s_dUt t) by (unfold core in H; congruence).
      assert (HX : core s = core t) by (do 4 apply (f_equal fst) in H; exact H).
      destruct (Reqb (dot (s_DUold t) (s_DUold t)) 0 && Reqb (s_DLold t * s_DLold t) 0).
      * destruct (rdiv (s_len t) (sqrt (2 * dot (s_dUt t) (s_dUt t)))) as [l|]; [|split; [reflexivity|exact HX]]. cbv zeta. cbn [s_dL set_dL s_dUbar s_dUt].
        assert (H' : forall u, live false true false (set_dU u (set_dL l s)) = live false true false (set_dU u (set_dL l t))) by (intros u; unfold core in *; injection H; intros; unfold live, core, opt; cbn; congruence).
        replace (s_dUbar s) with (s_dUbar t) by (unfold core in H; congruence). replace (s_dUt s) with (s_dUt t) by (unfold core in H; congruence).
        unfold defaultPhi. destruct (o_phiUser o); cbn [opt] in H.
        -- split; [reflexivity|]. unfold core in *. injection H; intros. unfold live, core, opt. cbn. congruence.
        -- specialize (H' (s_dUbar t +v l *v s_dUt t)). revert H'. generalize (set_dU (s_dUbar t +v l *v s_dUt t) (set_dL l s)) as s', (set_dU (s_dUbar t +v l *v s_dUt t) (set_dL l t)) as t'.
           clear s t H HX. intros s t H. replace (s_dUt s) with (s_dUt t) by (unfold live, core, opt in H; congruence).
           destruct (rdiv (dot (s_dUt t) (s_dUt t)) (dot (p_F p) (p_F p))); (split; [reflexivity|]); [|apply (live_core _ _ _ _ _ H)]. open s t H. unfold live, core. cbn. congruence.
      * apply (rel_bind (fun s : st => (core s, (s_DU s, s_DL s, s_numIt s), (s_jac s, s_fact s), s_phi s, s_dUt s))).
        -- destruct (o_phiUser o); cbn [opt] in H; [split; [reflexivity|]; unfold core in *; injection H; intros; congruence|].
           destruct (rdiv (dot (s_U t) (s_U t)) (s_L t * s_L t * dot (p_F p) (p_F p))); (split; [reflexivity|]); [|exact HX]. unfold core in *. injection H; intros. cbn. congruence.
        -- clear s t H HX. intros _ s t H. split; [reflexivity|]. apply lambdaMU_live, H.
    + clear s t H. intros _ s t H. cbv zeta.
      assert (H' : live true true false (set_DL (s_DL s + s_dL s) (set_DU (s_DU s +v s_dU s) s)) = live true true false (set_DL (s_DL t + s_dL t) (set_DU (s_DU t +v s_dU t) t))) by (open s t H; unfold live, core; cbn; congruence).
      cbn [s_DL set_DU s_dL]. revert H'. generalize (set_DL (s_DL s + s_dL s) (set_DU (s_DU s +v s_dU s) s)) as s', (set_DL (s_DL t + s_dL t) (set_DU (s_DU t +v s_dU t) t)) as t'. clear s t H. intros s t H.
      destruct (o_angle o); (split; [reflexivity|]); [exact H|open s t H; unfold live, core; cbn; congruence..].
  - rewrite Hre in *. assert (H' : live true false false s = live true false false t) by (unfold core, opt in *; injection H; intros; unfold live, core, opt; cbn; congruence). clear H. rename H' into H.
    apply (rel_bind (live true false false)).
    + replace (s_U s) with (s_U t) by (unfold live, core in H; congruence). replace (s_L s) with (s_L t) by (unfold live, core in H; congruence).
      replace (s_Uprev s) with (s_Uprev t) by (unfold live, core in H; congruence). replace (s_Lprev s) with (s_Lprev t) by (unfold live, core in H; congruence).
      destruct (close _ _ _ _); [apply first_rel, H|apply secant_rel, H].
    + clear s t H. intros _ s t H. unfold defaultPhi. rewrite Hre. cbn [obind]. split; [reflexivity|]. apply scale_rel, H.
Qed.
Lemma quasiNewtonIteration_rel q s t : live phiSet q true s = live phiSet q true t ->
  rel (live phiSet (match k with LoadControl => q | _ => true end) true) (quasiNewtonIteration p k s) (quasiNewtonIteration p k t).
Proof.
  intros H. unfold quasiNewtonIteration. apply (rel_bind (live phiSet q true)); [apply stepJacobian_rel, H|]. clear s t H. intros _ s t H.
  destruct k; [split; [reflexivity|exact H]|apply (computeUt_rel _ _ _ _ _ H)..].
Qed.
(** m_deltaUt is known: after a new Jacobian, always with quasi-Newton *)
Definition ut (q : bool) : Prop := match k with LoadControl => True | _ => q = true end.
Lemma lambdas_rel s t : (live true true true s, s_dUbar s) = (live true true true t, s_dUbar t) ->
  rel (fun s => (live true true true s, s_dUbar s)) (computeLambdas p s) (computeLambdas p t).
Proof.
  intros H. unfold computeLambdas. cbv zeta.
  assert (HC : lambdaCoeffs p s = lambdaCoeffs p t) by (unfold lambdaCoeffs, A0; open s t H; reflexivity). rewrite <- HC. generalize (lambdaCoeffs p s) as c. clear HC. intros c.
  assert (HD : forall e l1 l2, (live true true true (computeLambdaDOT e l1 l2 s), s_dUbar (computeLambdaDOT e l1 l2 s)) = (live true true true (computeLambdaDOT e l1 l2 t), s_dUbar (computeLambdaDOT e l1 l2 t))).
  { intros e l1 l2. unfold computeLambdaDOT. open s t H. cbn. cases; reflexivity. }
  assert (HX : core s = core t) by (apply (f_equal fst) in H; apply (live_core _ _ _ _ _ H)).
  destruct (Reqb (c_a0 c) 0); [split; [reflexivity|exact HX]|]. destruct (Rleb 0 (discriminant c 1)); [split; [reflexivity|apply HD]|].
  destruct (etaModified c) as [[d2 eta]|e]; [|split; [reflexivity|exact HX]]. destruct (Rleb 0 d2 && Rltb (5 / 100) eta); [split; [reflexivity|apply HD]|].
  apply (rel_bind (fun s => (live true true true s, s_dUbar s))); [|intros _ s' t' H'; split; [reflexivity|exact H']].
  unfold computeLambdasComplex, A0. open s t H. same.
Qed.
Lemma iteration_rel q s t : ut q -> live phiSet q true s = live phiSet q true t -> rel (live phiSet q true) (iteration p o k s) (iteration p o k t).
Proof.
  intros HU H. unfold iteration. apply (rel_bind (fun s => (live phiSet q true s, s_dUbar s))); [apply computeUbar_rel, H|]. clear s t H. intros _ s t H.
  unfold ut, phiSet in *. destruct k.
  - cbv zeta. open s t H. same.
  - rewrite HU in *. cbv zeta. open s t H. same.
  - rewrite HU in *. cbv zeta. assert (HL : s_dL s = s_dL t) by (open s t H; reflexivity).
    apply (rel_bind (fun s => (live true true true s, s_dUbar s))); [apply lambdas_rel, H|]. rewrite HL. generalize (s_dL t) as lam. clear s t H HL. intros lam eta s t H.
    open s t H. cbn. destruct (Rltb (lam * s_dL0) 0 && Rleb (Rabs s_dL0) (Rabs lam) && negb (Reqb (o_relax o) 1)); destruct (o_angle o); same.
  - rewrite HU in *. cbv zeta. open s t H. same.
Qed.
Lemma finish_rel f q s t : live f q true s = live f q true t ->
  rel (fun s => (core s, opt f (s_phi s))) (let s := iterationFinish o k s in if s_adaptive s then computeLength s else Ret tt (set_lenPrev (s_len s) s))
          (let s := iterationFinish o k t in if s_adaptive s then computeLength s else Ret tt (set_lenPrev (s_len s) s)).
Proof.
  intros H. cbv zeta. assert (HF : (core (iterationFinish o k s), opt f (s_phi (iterationFinish o k s)), s_numIt (iterationFinish o k s)) = (core (iterationFinish o k t), opt f (s_phi (iterationFinish o k t)), s_numIt (iterationFinish o k t))).
  { unfold live, core in H. injection H. intros. unfold iterationFinish, core. destruct k; [| |destruct (o_angle o)|]; cbn; congruence. }
  revert HF. generalize (iterationFinish o k s) as s', (iterationFinish o k t) as t'. clear s t H. intros s t H.
  assert (E : s_adaptive s = s_adaptive t /\ s_numIt s = s_numIt t) by (unfold core in H; split; congruence). destruct E as [E1 E2]. rewrite E1.
  destruct (s_adaptive t).
  - unfold computeLength. rewrite E2. replace (s_desired s) with (s_desired t) by (unfold core in H; congruence). cbv zeta. generalize (if Rltb (IZR (s_desired t ÷ Z.of_nat (s_numIt t))) (1 / 2) then 1 / 2 else if Rltb 2 (IZR (s_desired t ÷ Z.of_nat (s_numIt t))) then 2 else IZR (s_desired t ÷ Z.of_nat (s_numIt t))) as fac. intros fac. destruct (Nat.eqb (s_numIt t) 0); (split; [reflexivity|]); [congruence|]. unfold core in *. injection H. intros. cbn. congruence.
  - split; [reflexivity|]. unfold core in *. injection H. intros. cbn. congruence.
Qed.
Lemma rel_bind_n {A A' B C} n (L : st -> A) (L' : st -> A') (x y : out S Mat B) (f g : B -> st -> out S Mat C) :
  rel L x y -> s_numIt (outSt x) = n -> (forall a s t, s_numIt s = n -> L s = L t -> rel L' (f a s) (g a t)) -> rel L' (obind x f) (obind y g).
Proof. destruct x, y; cbn; try tauto. intros [-> H] E K. apply K; [exact E|exact H]. Qed.
Lemma numIt4 s t : keep4 s = keep4 t -> s_numIt s = s_numIt t.
Proof. intros H. injection H. auto. Qed.
Lemma numIt3 s t : keep3 s = keep3 t -> s_numIt s = s_numIt t.
Proof. intros H. injection H. auto. Qed.
Lemma stepLoop_rel : forall n q i s t, (ut q \/ o_quasi o = false) -> i <> 0%nat -> live phiSet q true s = live phiSet q true t ->
  rel (fun s => (core s, opt phiSet (s_phi s))) (stepLoop p o k n i s) (stepLoop p o k n i t).
Proof.
  induction n as [|n IH]; intros q i s t HQ Hi H; [cbn [stepLoop]; open s t H; same|]. cbn [stepLoop]. cbv zeta.
  assert (H0 : live phiSet q true (set_numIt i s) = live phiSet q true (set_numIt i t)) by (open s t H; same).
  assert (HN : s_numIt (set_numIt i s) = i) by reflexivity. revert H0 HN.
  generalize (set_numIt i s) as s', (set_numIt i t) as t'. clear s t H. intros s t H HN.
  set (q' := match k with LoadControl => q | _ => true end).
  assert (HQ' : ut q' \/ o_quasi o = false) by (left; unfold ut, q'; destruct k; auto).
  assert (Hu : ut q') by (unfold ut, q'; destruct k; auto).
  apply (rel_bind_n i (live phiSet q' true)).
  { destruct (newJacobian o i) eqn:EJ; [apply quasiNewtonIteration_rel, H|]. unfold newJacobian in EJ. apply orb_false_iff in EJ. destruct EJ as [EJ _]. destruct HQ as [HQ|HQ]; [|rewrite HQ in EJ; discriminate].
    split; [reflexivity|]. replace q' with q; [exact H|]. unfold q', ut in *. destruct k; auto. }
  { destruct (newJacobian o i); [|exact HN]. rewrite <- HN. apply numIt4, quasiNewtonIteration_keep. }
  clear s t H HN HQ. intros _ s t HN H. clearbody q'.
  apply (rel_bind_n i (live phiSet q' true)); [apply (iteration_rel _ _ _ Hu H)|rewrite <- HN; apply numIt3, iteration_keep|].
  clear s t H HN. intros _ s t HN H.
  apply (rel_bind_n i (live phiSet q' true)); [apply relB_rel, computeStability_rel, H|rewrite <- HN; apply numIt4, computeStability_keep|].
  clear s t H HN. intros _ s t HN H.
  apply (rel_bind_n i (fun s => (live phiSet q' true s, s_resVec s))); [apply computeResidual_rel, H|rewrite <- HN; apply numIt4, computeResidual_keep|].
  clear s t H HN. intros _ s t HN H. apply norms_next in H; [|congruence]. revert H. generalize (computeResidualNorms p s) as s', (computeResidualNorms p t) as t'. clear s t HN. intros s t H.
  apply (rel_bind (liveN phiSet q')).
  { destruct (o_verbose o); [apply computeStability_N, H|split; [reflexivity|exact H]]. }
  clear s t H. intros _ s t H.
  assert (HC : convergedTest o s = convergedTest o t) by (unfold convergedTest; unfold liveN in H; congruence). rewrite HC. unfold liveN in H. do 2 apply (f_equal fst) in H. cbn [fst] in H.
  destruct (convergedTest o t); [apply (finish_rel _ _ _ _ H)|].
  destruct n as [|n]; [split; [reflexivity|apply (live_core _ _ _ _ _ H)]|]. apply (IH q'); auto.
Qed.
(** the step, without a guess *)
Lemma step_rel s t : s_guess s = None -> agree s t -> rel (fun s => (core s, opt phiSet (s_phi s))) (step_ p o k s) (step_ p o k t).
Proof.
  intros HG HA. unfold step_. assert (E : core s = core t) by apply HA.
  assert (EI : s_initialized s = s_initialized t /\ s_guess t = None) by (unfold core in E; split; congruence). destruct EI as [EI HG'].
  rewrite EI. destruct (s_initialized t); [|split; [reflexivity|exact E]]. cbn [negb].
  pose proof (predictor_rel s t HA) as R.
  assert (P : forall s, s_guess s = None -> predict p o k (initiateStep k (set_numIt 0 (set_conv false s))) = predictor p o k (initiateStep k (set_numIt 0 (set_conv false s)))).
  { intros s0 G. unfold predict. rewrite (proj2 (initiateStep_keep _ _)). cbn [s_guess set_numIt set_conv]. rewrite G. reflexivity. }
  rewrite (P s HG), (P t HG'). clear P.
  assert (N0 : s_numIt (outSt (predictor p o k (initiateStep k (set_numIt 0 (set_conv false s))))) = 0%nat).
  { pose proof (predictor_keep p o k (initiateStep k (set_numIt 0 (set_conv false s)))) as K. unfold keep2 in K.
    transitivity (s_numIt (initiateStep k (set_numIt 0 (set_conv false s)))); [congruence|]. destruct k; reflexivity. }
  apply (rel_bind_n 0 (live phiSet utSet false)); [exact R|exact N0|]. clear R N0 E EI HG HG' HA s t. intros _ s t HN H.
  apply (rel_bind_n 0 (fun s => (live phiSet utSet false s, s_resVec s))); [apply computeResidual_rel, H|rewrite <- HN; apply numIt4, computeResidual_keep|].
  clear s t H HN. intros _ s t HN H. apply norms_first in H; [|exact HN]. revert H. generalize (computeResidualNorms p s) as s', (computeResidualNorms p t) as t'. clear s t HN. intros s t H.
  apply (rel_bind (liveN phiSet utSet)).
  { destruct (o_verbose o); [apply computeStability_N, H|split; [reflexivity|exact H]]. }
  clear s t H. intros _ s t H. unfold liveN in H. do 2 apply (f_equal fst) in H. cbn [fst] in H.
  set (q := if o_quasi o then match k with LoadControl => utSet | _ => true end else utSet).
  apply (rel_bind (live phiSet q true)).
  { subst q. destruct (o_quasi o); [|split; [reflexivity|exact H]]. unfold quasiNewtonPredictor. apply (rel_bind _ _ _ _ _ _ (quasiNewtonIteration_rel _ _ _ H)).
    clear s t H. intros _ s t H. apply computeUbar_rel in H. destruct (computeUbar p s), (computeUbar p t); try contradiction; destruct H as [H1 H2]; (split; [exact H1|]); [apply (f_equal fst) in H2|]; exact H2. }
  clear s t H. intros _ s t H. apply (stepLoop_rel _ q).
  - subst q. unfold ut, utSet. destruct (o_quasi o); [left|right; reflexivity]. destruct k; auto.
  - discriminate.
  - open s t H. unfold live, core. cbn. congruence.
Qed.
End Restart.

(** A user's m_phi is not changed by a step. *)
Section Phi.
Context {S : VS} {Mat : Type}.
Variable p : problem S Mat.
Variable o : opts.
Hypothesis HU : o_phiUser o = true.
Implicit Types s : st S Mat.
Ltac cases := repeat (match goal with |- context [match ?x with _ => _ end] => destruct x end; cbn [obind outSt]).
Tactic Notation "kb" ident(s1) ident(K) := apply (bind_proj s_phi); [|intros ? s1 _ K].
Lemma keep4_phi s s' : keep4 s' = keep4 s -> s_phi s' = s_phi s.
Proof. intros H. injection H. auto. Qed.
Lemma keep3_phi s s' : keep3 s' = keep3 s -> s_phi s' = s_phi s.
Proof. intros H. injection H. auto. Qed.
Lemma predictor_phi k s : k <> Riks -> s_phi (outSt (predictor p o k s)) = s_phi s.
Proof.
  intros HK. unfold predictor. kb s1 K1; [apply keep4_phi, stepJacobian_keep|]. rewrite <- K1. destruct k; [| congruence | |].
  - cbv zeta. set (s1' := set_DL _ _). change (s_phi s1) with (s_phi s1'). kb s2 K2; [apply keep4_phi, computeUt_keep|]. exact K2.
  - kb s2 K2; [apply keep4_phi, computeUt_keep|]. rewrite <- K2. kb s3 K3.
    + unfold defaultPhi. rewrite HU. cases; reflexivity.
    + destruct (o_angle o); exact K3.
  - kb s2 K2; [unfold firstPredictor, secantPredictor, solveSystem; cases; reflexivity|]. rewrite <- K2.
    kb s3 K3; [unfold defaultPhi; rewrite HU; reflexivity|]. exact K3.
Qed.
Lemma norms_phi s : s_phi (computeResidualNorms p s) = s_phi s.
Proof. unfold computeResidualNorms. cases; reflexivity. Qed.
Lemma stepLoop_phi k : forall n i s, s_phi (outSt (stepLoop p o k n i s)) = s_phi s.
Proof.
  induction n as [|n IH]; intros i s; [reflexivity|]. cbn [stepLoop]. cbv zeta.
  change (s_phi s) with (s_phi (set_numIt i s)). set (s0 := set_numIt i s). clearbody s0. clear s.
  kb s1 K1; [destruct (newJacobian o i); [apply keep4_phi, quasiNewtonIteration_keep|reflexivity]|].
  rewrite <- K1. kb s2 K2; [apply keep3_phi, iteration_keep|].
  rewrite <- K2. kb s3 K3; [apply keep4_phi, computeStability_keep|].
  rewrite <- K3. kb s4 K4; [apply keep4_phi, computeResidual_keep|].
  rewrite <- K4, <- (norms_phi s4). kb s5 K5; [destruct (o_verbose o); [apply keep4_phi, stepOutput_keep|reflexivity]|].
  rewrite <- K5. destruct (convergedTest o s5).
  - unfold iterationFinish, computeLength. destruct k; try destruct (o_angle o); cases; reflexivity.
  - destruct n; [reflexivity|]. apply IH.
Qed.
Lemma step_phi k s : k <> Riks -> s_guess s = None -> s_phi (outSt (step_ p o k s)) = s_phi s.
Proof.
  intros HK G. unfold step_. destruct (negb (s_initialized s)); [reflexivity|]. cbv zeta.
  set (s0 := initiateStep k _). assert (E0 : s_phi s0 = s_phi s /\ s_guess s0 = None) by (split; [|rewrite <- G]; destruct k; reflexivity). destruct E0 as [E0 G0]. rewrite <- E0.
  kb s1 K1; [unfold predict; rewrite G0; apply (predictor_phi _ _ HK)|]. rewrite <- K1.
  kb s2 K2; [apply keep4_phi, computeResidual_keep|]. rewrite <- K2, <- (norms_phi s2).
  kb s3 K3; [destruct (o_verbose o); [apply keep4_phi, stepOutput_keep|reflexivity]|]. rewrite <- K3.
  kb s4 K4; [destruct (o_quasi o); [apply keep4_phi, quasiNewtonPredictor_keep|reflexivity]|].
  rewrite <- K4. rewrite stepLoop_phi. reflexivity.
Qed.
End Phi.
