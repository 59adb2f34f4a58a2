(** The output switched on by Verbose changes the members of the stability computation
    only; these do not influence the steps. *)
From Verif Require Import VS Status ALMBase ALMBaseProofs ALMStep ALMLog.
Local Open Scope R_scope.

Section Verbose.
Context {S : VS} {Mat : Type}.
Notation st := (st S Mat).
Variable p : problem S Mat.
Implicit Types s : st.

(** the state without the members of the stability computation, the status and the log *)
Definition core s : st :=
  set_log [] (set_stat Success (set_stabPrev 0%Z (set_stab 0%Z (set_indicator 0 (set_negatives 0%nat (set_stabVec [] s)))))).
Definition mapO {A} (x : out S Mat A) : (A + err) * st :=
  match x with Ret a s => (inl a, core s) | Exc e s => (inr e, core s) end.
(** [f] gives the same up to [core] on states equal up to [core] *)
Definition resp {A} (f : st -> out S Mat A) : Prop := forall s s', core s = core s' -> mapO (f s) = mapO (f s').
Lemma resp_core {A} (f : st -> out S Mat A) : (forall s, mapO (f (core s)) = mapO (f s)) -> resp f.
Proof. intros H s s' E. rewrite <- (H s), <- (H s'), E. reflexivity. Qed.
Lemma resp_bind {A B} (f : st -> out S Mat A) (g : A -> st -> out S Mat B) :
  resp f -> (forall a, resp (g a)) -> resp (fun s => obind (f s) (g)).
Proof.
  intros Hf Hg s s' E. specialize (Hf s s' E). pose proof (f_equal fst Hf) as H1. pose proof (f_equal snd Hf) as H2.
  destruct (f s) as [a t|e t], (f s') as [a' t'|e' t']; cbn [mapO obind fst snd] in *; try discriminate.
  - injection H1 as <-. apply Hg. exact H2.
  - injection H1 as <-. rewrite H2. reflexivity.
Qed.
Lemma resp_ret {A} (f : st -> A) (g : st -> st) : (forall s, f (core s) = f s) -> (forall s, core (g (core s)) = core (g s)) ->
  resp (fun s => Ret (f s) (g s)).
Proof. intros Hf Hg. apply resp_core. intros s. cbn [mapO]. rewrite Hf, Hg. reflexivity. Qed.
Lemma resp_pre {A} (g : st -> st) (f : st -> out S Mat A) : (forall s, core (g (core s)) = core (g s)) -> resp f -> resp (fun s => f (g s)).
Proof. intros Hg Hf s s' E. apply Hf. rewrite <- (Hg s), <- (Hg s'), E. reflexivity. Qed.

(** equality of states built by setters from a state and from its core *)
Ltac crefl := cbv [core logEv initiateStep scaleStep computeLambdaMU A0 mapO set_U set_Uprev set_DU set_dU set_dUbar set_dUt set_DUold set_Vm set_DV set_dV set_dVbar set_dVt set_resVec set_L set_Lprev set_DL set_dL set_DLold set_guess set_jac set_fact set_len set_lenPrev set_lenOri set_adaptive set_desired set_numIt set_conv set_stat set_initialized set_resF set_resU set_basF set_basU set_resKT set_phi set_stabVec set_negatives set_indicator set_stab set_stabPrev set_log s_U s_Uprev s_DU s_dU s_dUbar s_dUt s_DUold s_Vm s_DV s_dV s_dVbar s_dVt s_resVec s_L s_Lprev s_DL s_dL s_DLold s_guess s_jac s_fact s_len s_lenPrev s_lenOri s_adaptive s_desired s_numIt s_conv s_stat s_initialized s_resF s_resU s_basF s_basU s_resKT s_phi s_stabVec s_negatives s_indicator s_stab s_stabPrev s_log]; reflexivity.
Ltac leaf := apply resp_core; let s := fresh "s" in intros s; destruct s; cbv beta zeta iota delta [core logEv initiateStep scaleStep computeLambdaMU A0 set_U set_Uprev set_DU set_dU set_dUbar set_dUt set_DUold set_Vm set_DV set_dV set_dVbar set_dVt set_resVec set_L set_Lprev set_DL set_dL set_DLold set_guess set_jac set_fact set_len set_lenPrev set_lenOri set_adaptive set_desired set_numIt set_conv set_stat set_initialized set_resF set_resU set_basF set_basU set_resKT set_phi set_stabVec set_negatives set_indicator set_stab set_stabPrev set_log s_U s_Uprev s_DU s_dU s_dUbar s_dUt s_DUold s_Vm s_DV s_dV s_dVbar s_dVt s_resVec s_L s_Lprev s_DL s_dL s_DLold s_guess s_jac s_fact s_len s_lenPrev s_lenOri s_adaptive s_desired s_numIt s_conv s_stat s_initialized s_resF s_resU s_basF s_basU s_resKT s_phi s_stabVec s_negatives s_indicator s_stab s_stabPrev s_log];
  repeat match goal with |- context [match ?x with _ => _ end] => destruct x end; reflexivity.

Variable o : opts.
Lemma resp_refresh : forall u du, (resp (refreshJacobian p u du)).
Proof.
  intros u du. unfold refreshJacobian, computeJacobianAt, factorizeMatrix. apply resp_core. intros s. destruct s. cbn.
  destruct (p_jacobian p u du); [|reflexivity]. cbn. destruct (p_factor p m) eqn:E; cbn; [rewrite E|]; reflexivity.
Qed.
Lemma resp_stepJacobian : resp (stepJacobian p).
Proof.
  intros s s' E. unfold stepJacobian. replace (s_U s) with (s_U s') by (change (s_U (core s') = s_U (core s)); congruence).
  replace (s_DU s) with (s_DU s') by (change (s_DU (core s') = s_DU (core s)); congruence).
  replace (s_dU s) with (s_dU s') by (change (s_dU (core s') = s_dU (core s)); congruence).
  apply resp_refresh. exact E.
Qed.
Lemma resp_solve f : resp (solveSystem p f).
Proof. unfold solveSystem. leaf. Qed.
Lemma resp_Ut : resp (computeUt p).
Proof. unfold computeUt. apply resp_bind; [apply resp_solve|]. intros a. leaf. Qed.
Lemma resp_Ubar : resp (computeUbar p).
Proof. unfold computeUbar, solveSystem. leaf. Qed.
Lemma resp_residual : resp (computeResidual p).
Proof. unfold computeResidual, computeResidualAt. leaf. Qed.
Lemma resp_defaultPhi : resp (defaultPhi p o).
Proof. unfold defaultPhi. leaf. Qed.
Lemma resp_first : resp (firstPredictor p).
Proof. unfold firstPredictor. apply resp_bind; [apply resp_solve|]. intros a. leaf. Qed.
Lemma resp_secant u1 l1 u0 l0 : resp (secantPredictor u1 l1 u0 l0).
Proof. unfold secantPredictor. leaf. Qed.
Lemma core_scale b s : core (scaleStep b (core s)) = core (scaleStep b s).
Proof. destruct b; reflexivity. Qed.
(** a function that reads its other arguments from the state *)
Lemma resp_arg {A B} (h : st -> B) (f : B -> st -> out S Mat A) : (forall s, h (core s) = h s) -> (forall b, resp (f b)) ->
  resp (fun s => f (h s) s).
Proof. intros Hh Hf s s' E. replace (h s) with (h s') by (rewrite <- (Hh s), <- (Hh s'), E; reflexivity). apply Hf. exact E. Qed.
Lemma resp_if {A} (b : st -> bool) (f g : st -> out S Mat A) : (forall s, b (core s) = b s) -> resp f -> resp g ->
  resp (fun s => if b s then f s else g s).
Proof.
  intros Hb Hf Hg s s' E. replace (b s) with (b s') by (rewrite <- (Hb s), <- (Hb s'), E; reflexivity).
  destruct (b s'); [apply Hf|apply Hg]; exact E.
Qed.
Lemma resp_opt {A B} (h : st -> option B) (f : B -> st -> out S Mat A) g : (forall s, h (core s) = h s) -> (forall b, resp (f b)) -> resp g ->
  resp (fun s => match h s with Some b => f b s | None => g s end).
Proof.
  intros Hh Hf Hg s s' E. replace (h s) with (h s') by (rewrite <- (Hh s), <- (Hh s'), E; reflexivity).
  destruct (h s'); [apply Hf|apply Hg]; exact E.
Qed.
Lemma resp_exc {A} e : resp (fun s => Exc (A := A) e s).
Proof. intros s s' E. cbn [mapO]. rewrite E. reflexivity. Qed.
Ltac cr := let s := fresh "s" in intros s; destruct s; crefl.

Lemma resp_predictor k : resp (predictor p o k).
Proof.
  unfold predictor. apply resp_bind; [apply resp_stepJacobian|]. intros _. destruct k.
  - apply (resp_pre (fun s => set_DL (s_len s) (set_dL (s_len s) s))
      (fun s => obind (computeUt p s) (fun _ s => Ret tt (set_DU (s_dL s *v s_dUt s) s)))); [cr|].
    apply resp_bind; [apply resp_Ut|]. intros _. apply resp_ret; cr.
  - destruct (Nat.eqb (p_numDof p) 0); [apply resp_exc|].
    apply (resp_pre (fun s => set_phi (if Nat.eqb (p_numDof p) 1 then 99999999999 / 100000000000 else 1 / INR (p_numDof p)) s)
      (fun s => obind (if close (s_U s) (s_L s) (s_Uprev s) (s_Lprev s) then firstPredictor p s
                 else secantPredictor (s_U s) (s_L s) (s_Uprev s) (s_Lprev s) s) (fun _ s => Ret tt (scaleStep false s)))); [cr|].
    apply resp_bind; [|intros _; apply resp_ret; [cr|apply core_scale]].
    apply resp_if; [cr|apply resp_first|].
    apply (resp_arg (fun s => (s_U s, s_L s, s_Uprev s, s_Lprev s)) (fun q s => let '(a, b, c, d) := q in secantPredictor a b c d s)); [cr|].
    intros [[[a b] c] d]. apply resp_secant.
  - apply resp_bind; [apply resp_Ut|]. intros _. apply resp_bind.
    + apply (resp_if (fun s => Reqb (dot (s_DUold s) (s_DUold s)) 0 && Reqb (s_DLold s * s_DLold s) 0)); [cr| |].
      * apply (resp_opt (fun s => rdiv (s_len s) (sqrt (2 * dot (s_dUt s) (s_dUt s))))
          (fun l s => let s := set_dL l s in let s := set_dU (s_dUbar s +v s_dL s *v s_dUt s) s in defaultPhi p o s)); [cr| |apply resp_exc].
        intros l. apply (resp_pre (fun s => set_dU (s_dUbar s +v l *v s_dUt s) (set_dL l s))); [cr|]. apply resp_defaultPhi.
      * apply resp_bind; [|intros _; apply resp_ret; cr].
        destruct (o_phiUser o); [apply (resp_ret (fun _ => tt) (fun s => s)); cr|].
        apply (resp_opt (fun s => rdiv (dot (s_U s) (s_U s)) (s_L s * s_L s * dot (p_F p) (p_F p)))
          (fun q s => Ret tt (set_phi (sqrt q) s)) (fun s => Exc ENaN s)); [cr| |apply resp_exc].
        intros q. apply (resp_ret (fun _ => tt)); cr.
    + intros _. destruct (o_angle o).
      * apply (resp_ret (fun _ => tt)); cr.
      * apply (resp_ret (fun _ => tt)); cr.
      * apply (resp_ret (fun _ => tt)); cr.
  - apply resp_bind.
    + apply (resp_if (fun s => close (s_U s) (s_L s) (s_Uprev s) (s_Lprev s))); [cr|apply resp_first|].
      apply (resp_arg (fun s => (s_U s, s_L s, s_Uprev s, s_Lprev s)) (fun q s => let '(a, b, c, d) := q in secantPredictor a b c d s)); [cr|].
      intros [[[a b] c] d]. apply resp_secant.
    + intros _. apply resp_bind; [apply resp_defaultPhi|]. intros _; apply resp_ret; [cr|apply core_scale].
Qed.
Lemma resp_predictorGuess k u l : resp (predictorGuess p o k u l).
Proof.
  unfold predictorGuess. apply resp_bind; [apply resp_stepJacobian|]. intros _. destruct k.
  - apply (resp_pre (fun s => set_DL (l - s_L s) (set_dL (l - s_L s) s))
      (fun s => obind (computeUt p s) (fun _ s => Ret tt (set_DU (s_dL s *v s_dUt s) s)))); [cr|].
    apply resp_bind; [apply resp_Ut|]. intros _. apply resp_ret; cr.
  - apply resp_bind; [apply resp_Ut|]. intros _. apply resp_bind.
    + apply (resp_if (fun s => close u l (s_U s) (s_L s))); [cr|apply resp_first|].
      apply (resp_arg (fun s => (s_U s, s_L s)) (fun q s => let '(c, d) := q in secantPredictor u l c d s)); [cr|].
      intros [c d]. apply resp_secant.
    + intros _. apply (resp_ret (fun _ => tt)); cr.
  - apply resp_bind; [apply resp_Ut|]. intros _. apply resp_bind; [apply resp_defaultPhi|]. intros _.
    apply (resp_ret (fun _ => tt)); cr.
  - apply resp_bind.
    + apply (resp_if (fun s => close u l (s_U s) (s_L s))); [cr|apply resp_first|].
      apply (resp_arg (fun s => (s_U s, s_L s)) (fun q s => let '(c, d) := q in secantPredictor u l c d s)); [cr|].
      intros [c d]. apply resp_secant.
    + intros _. apply resp_bind; [apply resp_defaultPhi|]. intros _; apply resp_ret; [cr|apply core_scale].
Qed.
Lemma resp_predict k : resp (predict p o k).
Proof.
  intros s s' E. unfold predict. assert (Eg : s_guess s = s_guess s') by (change (s_guess (core s) = s_guess (core s')); congruence).
  assert (EU : s_U s = s_U s') by (change (s_U (core s) = s_U (core s')); congruence).
  assert (EL : s_L s = s_L s') by (change (s_L (core s) = s_L (core s')); congruence).
  rewrite Eg, EU, EL. destruct (s_guess s') as [[u l]|]; [|apply resp_predictor; auto].
  destruct (_ && _); [apply resp_predictorGuess|apply resp_predictor]; auto.
Qed.

Lemma core_DOT e l1 l2 s : core (computeLambdaDOT e l1 l2 (core s)) = core (computeLambdaDOT e l1 l2 s).
Proof. unfold computeLambdaDOT. cbv zeta. cbn [s_dUbar s_dUt s_DUold s_DLold s_phi core set_log set_stat set_stabPrev set_stab set_indicator set_negatives set_stabVec].
  destruct (Rltb _ _); [reflexivity|]. destruct (Rltb _ _); reflexivity. Qed.
Lemma resp_complex : resp (computeLambdasComplex p).
Proof. unfold computeLambdasComplex. leaf. Qed.
Lemma resp_lambdas : resp (computeLambdas p).
Proof.
  unfold computeLambdas. apply (resp_arg (fun s => lambdaCoeffs p s) (fun c s =>
    let D := discriminant c 1 in
    if Reqb (c_a0 c) 0 then Exc ENaN s
    else if Rleb 0 D then
      let l1 := (- alpha2 c 1 + sqrt D) / (2 * c_a0 c) in
      let l2 := (- alpha2 c 1 - sqrt D) / (2 * c_a0 c) in
      Ret 1 (computeLambdaDOT 1 l1 l2 s)
    else
      match etaModified c with
      | Fail e => Exc e s
      | Ok (D2, eta) =>
        if Rleb 0 D2 && Rltb (5 / 100) eta then
          let l := (- alpha2 c eta) / (2 * c_a0 c) in
          Ret eta (computeLambdaDOT eta l l s)
        else
          obind (computeLambdasComplex p s) (fun _ s => Ret 1 s)
      end)); [cr|]. intros c. cbv zeta.
  destruct (Reqb _ 0); [apply resp_exc|]. destruct (Rleb _ _); [apply (resp_ret (fun _ => 1)); [cr|apply core_DOT]|].
  destruct (etaModified c) as [[D2 eta]|e]; [|apply resp_exc].
  destruct (_ && _); [apply (resp_ret (fun _ => eta)); [cr|apply core_DOT]|].
  apply resp_bind; [apply resp_complex|]. intros _. apply (resp_ret (fun _ => 1) (fun s => s)); cr.
Qed.
Lemma resp_iterRiks : resp (fun s =>
    let a := s_U s +v s_DU s -v s_U s in
    let r := s_phi s * dot a a + (1 - s_phi s) * ((s_L s + s_DL s - s_L s) * (s_L s + s_DL s - s_L s)) - s_len s * s_len s in
    match rdiv (- (r + 2 * s_phi s * dot (s_DU s) (s_dUbar s)))
               (2 * (1 - s_phi s) * s_DL s + 2 * s_phi s * dot (s_DU s) (s_dUt s)) with
    | None => Exc ENaN s
    | Some l =>
      let s := set_dL l s in
      let s := set_dU (s_dUbar s +v s_dL s *v s_dUt s) s in
      Ret tt (set_DL (s_DL s + s_dL s) (set_DU (s_DU s +v s_dU s) s))
    end).
Proof. leaf. Qed.
Lemma resp_iterCC : resp (fun s =>
    let cres := dot (s_DU s) (s_DU s) + s_phi s * s_phi s * s_DL s * s_DL s * dot (p_F p) (p_F p) - s_len s * s_len s in
    let num := cres + dot (2 *v s_DU s) (s_dUbar s) in
    let denum := dot (2 *v s_DU s) (s_dUt s) + s_phi s * s_phi s * 2 * s_DL s * dot (p_F p) (p_F p) in
    match rdiv (- num) denum with
    | None => Exc ENaN s
    | Some l =>
      let s := set_dL l s in
      let s := set_dU (s_dL s *v s_dUt s +v s_dUbar s) s in
      Ret tt (set_DL (s_DL s + s_dL s) (set_DU (s_DU s +v s_dU s) s))
    end).
Proof. leaf. Qed.
Lemma resp_iterC lam eta : resp (fun s =>
    let s := if Rltb (lam * s_dL s) 0 && Rleb (Rabs (s_dL s)) (Rabs lam) && negb (Reqb (o_relax o) 1)
             then let s := set_dU (o_relax o *v (s_dL s *v s_dUt s +v eta *v s_dUbar s)) s in
                  set_dL (o_relax o * s_dL s) s
             else s in
    let s := set_DU (s_DU s +v s_dU s) s in
    let s := set_DL (s_DL s + s_dL s) s in
    match o_angle o with
    | AngIteration => Ret tt (set_DLold (s_DL s) (set_DUold (s_DU s) s))
    | _ => Ret tt s
    end).
Proof.
  assert (A : resp (fun s => let s := set_dU (o_relax o *v (s_dL s *v s_dUt s +v eta *v s_dUbar s)) s in
                  let s := set_dL (o_relax o * s_dL s) s in let s := set_DU (s_DU s +v s_dU s) s in
    let s := set_DL (s_DL s + s_dL s) s in
    match o_angle o with
    | AngIteration => Ret tt (set_DLold (s_DL s) (set_DUold (s_DU s) s))
    | _ => Ret tt s
    end)) by (destruct (o_angle o); leaf).
  assert (B : resp (fun s => let s := set_DU (s_DU s +v s_dU s) s in
    let s := set_DL (s_DL s + s_dL s) s in
    match o_angle o with
    | AngIteration => Ret tt (set_DLold (s_DL s) (set_DUold (s_DU s) s))
    | _ => Ret tt s
    end)) by (destruct (o_angle o); leaf).
  intros s s' E. assert (El : s_dL s = s_dL s') by (change (s_dL (core s) = s_dL (core s')); congruence).
  cbv beta delta [resp] in A, B. specialize (A s s' E). specialize (B s s' E). cbv zeta in *. rewrite El in *.
  destruct (_ && _); assumption.
Qed.
Lemma resp_iteration k : resp (iteration p o k).
Proof.
  unfold iteration. apply resp_bind; [apply resp_Ubar|]. intros _. destruct k.
  - apply (resp_ret (fun _ => tt)); cr.
  - apply resp_iterRiks.
  - intros s s' E. assert (El : s_dL s = s_dL s') by (change (s_dL (core s) = s_dL (core s')); congruence).
    cbv zeta. rewrite El. revert s s' E El. intros s s' E El. generalize (s_dL s'). clear El. intros lam. revert s s' E.
    apply (resp_bind (computeLambdas p)); [apply resp_lambdas|]. intros eta. apply resp_iterC.
  - apply resp_iterCC.
Qed.
Lemma resp_quasi k : resp (quasiNewtonIteration p k).
Proof.
  unfold quasiNewtonIteration. apply resp_bind; [apply resp_stepJacobian|]. intros _. destruct k;
  [apply (resp_ret (fun _ => tt) (fun s => s)); cr| | |]; apply resp_Ut.
Qed.
Lemma resp_quasiPredictor k : resp (quasiNewtonPredictor p k).
Proof. unfold quasiNewtonPredictor. apply resp_bind; [apply resp_quasi|]. intros _. apply resp_Ubar. Qed.
Lemma core_norms s : core (computeResidualNorms p (core s)) = core (computeResidualNorms p s).
Proof.
  unfold computeResidualNorms. destruct s. destruct (Nat.eqb _ _); crefl.
Qed.
Lemma core_finish k s : core (iterationFinish o k (core s)) = core (iterationFinish o k s).
Proof. unfold iterationFinish. destruct k, (o_angle o), s; crefl. Qed.
Lemma resp_length : resp (@computeLength S Mat).
Proof. unfold computeLength. leaf. Qed.
Lemma resp_end k : resp (fun s => let s := iterationFinish o k s in
      if s_adaptive s then computeLength s else Ret tt (set_lenPrev (s_len s) s)).
Proof.
  apply (resp_pre (iterationFinish o k) (fun s => if s_adaptive s then computeLength s else Ret tt (set_lenPrev (s_len s) s))); [apply core_finish|].
  apply resp_if; [cr|apply resp_length|]. apply (resp_ret (fun _ => tt)); cr.
Qed.

(** the stability computation changes nothing of [core] *)
Lemma stability_core s : wellPosed p o -> jacOK p s -> exists s', computeStability p o false s = Ret tt s' /\ core s' = core s.
Proof.
  intros (W1 & W2 & W3 & W4) (m & J1 & J2 & J3). unfold computeStability, computeStability_. cbn [obind].
  unfold stabilityVec, factorizeMatrix. destruct (o_bif o) eqn:Eb; [| | |contradiction].
  - cbn [obind]. destruct (minCoeff (repeat 0 (p_numDof p))) eqn:Em.
    + eexists. split; [reflexivity|]. reflexivity.
    + apply minCoeff_none in Em. destruct (p_numDof p); [lia|discriminate].
  - destruct (o_ldlt o); cbn [obind]; [|eexists; split; [reflexivity|reflexivity]].
    rewrite J1. rewrite J3. cbn [obind]. destruct (minCoeff (p_diag p m)) eqn:Em.
    + eexists. split; [reflexivity|]. destruct s; cbn in *. rewrite J2. reflexivity.
    + apply minCoeff_none in Em. destruct (W1 _ Em).
  - rewrite J1. destruct (p_eig p m) as [l|] eqn:El; cbn [obind isSome].
    + destruct (minCoeff l) eqn:Em.
      * eexists. split; reflexivity.
      * apply minCoeff_none in Em. destruct (W2 _ _ El Em).
    + eexists. split; reflexivity.
Qed.
Lemma jacOK_core s s' : core s = core s' -> jacOK p s -> jacOK p s'.
Proof.
  intros E. apply jacOK_ext; [change (s_jac (core s') = s_jac (core s))|change (s_fact (core s') = s_fact (core s))]; congruence.
Qed.
End Verbose.

Section Compare.
Ltac crefl := cbv [core logEv initiateStep scaleStep computeLambdaMU A0 mapO set_U set_Uprev set_DU set_dU set_dUbar set_dUt set_DUold set_Vm set_DV set_dV set_dVbar set_dVt set_resVec set_L set_Lprev set_DL set_dL set_DLold set_guess set_jac set_fact set_len set_lenPrev set_lenOri set_adaptive set_desired set_numIt set_conv set_stat set_initialized set_resF set_resU set_basF set_basU set_resKT set_phi set_stabVec set_negatives set_indicator set_stab set_stabPrev set_log s_U s_Uprev s_DU s_dU s_dUbar s_dUt s_DUold s_Vm s_DV s_dV s_dVbar s_dVt s_resVec s_L s_Lprev s_DL s_dL s_DLold s_guess s_jac s_fact s_len s_lenPrev s_lenOri s_adaptive s_desired s_numIt s_conv s_stat s_initialized s_resF s_resU s_basF s_basU s_resKT s_phi s_stabVec s_negatives s_indicator s_stab s_stabPrev s_log]; reflexivity.
Context {S : VS} {Mat : Type}.
Notation st := (st S Mat).
Variable p : problem S Mat.
Variable o : opts.
Implicit Types s : st.
(** the options with Verbose set to [b] *)
Definition withVerbose (b : bool) : opts := {|
  o_maxIt := o_maxIt o; o_tol := o_tol o; o_tolF := o_tolF o; o_tolU := o_tolU o; o_tau := o_tau o; o_quasi := o_quasi o;
  o_quasiInterval := o_quasiInterval o; o_bif := o_bif o; o_ldlt := o_ldlt o; o_verbose := b; o_relax := o_relax o;
  o_spFail := o_spFail o; o_spTestTol := o_spTestTol o; o_spTestIt := o_spTestIt o; o_spTolE := o_spTolE o;
  o_spTolB := o_spTolB o; o_phiUser := o_phiUser o; o_angle := o_angle o |}.
Variable b : bool.
Notation ob := (withVerbose b).
Hypothesis W : wellPosed p o.

(** two outcomes equal up to [core]; on return the tangent is there *)
Lemma both {A B} (x x' : out S Mat A) (f f' : A -> st -> out S Mat B) :
  mapO x = mapO x' -> (forall a s1, x = Ret a s1 -> jacOK p s1) ->
  (forall a s1 s1', core s1 = core s1' -> jacOK p s1 -> mapO (f a s1) = mapO (f' a s1')) ->
  mapO (obind x f) = mapO (obind x' f').
Proof.
  intros E J H. pose proof (f_equal fst E) as H1. pose proof (f_equal snd E) as H2.
  destruct x as [a t|e t], x' as [a' t'|e' t']; cbn [mapO obind fst snd] in *; try discriminate.
  - injection H1 as <-. apply H; auto. eapply J. reflexivity.
  - injection H1 as <-. rewrite H2. reflexivity.
Qed.
Lemma logs_jacOK {A} n s (x : out S Mat A) : logs p o n s x -> forall a s1, x = Ret a s1 -> jacOK p s1.
Proof. intros (evs & _ & H) a s1 ->. apply H. Qed.

Lemma verbose_out s s' : core s = core s' -> jacOK p s ->
  mapO (if o_verbose ob then stepOutput p ob s else Ret tt s) = mapO (if o_verbose o then stepOutput p o s' else Ret tt s') /\
  (forall a s1, (if o_verbose ob then stepOutput p ob s else Ret tt s) = Ret a s1 -> jacOK p s1).
Proof.
  intros E J. cbn [o_verbose withVerbose]. change (stepOutput p ob s) with (stepOutput p o s). unfold stepOutput.
  destruct (stability_core p o s W J) as (t & Et & Ct). destruct (stability_core p o s' W (jacOK_core p _ _ E J)) as (t' & Et' & Ct').
  rewrite Et, Et'. split; [destruct b, (o_verbose o); cbn; congruence|].
  intros a s1 H. destruct b; injection H as _ <-; [apply (jacOK_core p s); auto|auto].
Qed.
Lemma verbose_loop k : forall n i s s', core s = core s' -> jacOK p s ->
  mapO (stepLoop p ob k n i s) = mapO (stepLoop p o k n i s').
Proof.
  induction n as [|n IH]; intros i s s' E J.
  - cbn [stepLoop mapO]. f_equal. change (core (set_numIt i s)) with (set_numIt i (core s)). rewrite E. reflexivity.
  - cbn [stepLoop]. assert (E0 : core (set_numIt i s) = core (set_numIt i s')).
    { change (set_numIt i (core s) = set_numIt i (core s')). congruence. }
    assert (J0 : jacOK p (set_numIt i s)) by (apply (jacOK_ext p s); auto).
    revert E0 J0. generalize (set_numIt i s) (set_numIt i s'). clear s s' E J. intros s s' E J.
    change (newJacobian ob i) with (newJacobian o i).
    apply both.
    { destruct (newJacobian o i); [apply resp_quasi; auto|cbn; congruence]. }
    { destruct (newJacobian o i); [apply (logs_jacOK 0 s), log_quasi|intros; congruence]. }
    clear s s' E J. intros _ s s' E J. apply both.
    { apply (resp_iteration p o). exact E. }
    { apply (logs_jacOK 0 s (iteration p o k s)), log_iteration. auto. }
    clear s s' E J. intros _ s s' E J. apply both.
    { change (computeStability p ob false s) with (computeStability p o false s).
      destruct (stability_core p o s W J) as (t & Et & Ct). destruct (stability_core p o s' W (jacOK_core p _ _ E J)) as (t' & Et' & Ct').
      rewrite Et, Et'. cbn. congruence. }
    { apply (logs_jacOK 0 s (computeStability p o false s)), log_stability. auto. }
    clear s s' E J. intros _ s s' E J. apply both.
    { apply resp_residual. exact E. }
    { apply (logs_jacOK 1 s), log_residual. auto. }
    clear s s' E J. intros _ s s' E J. cbv zeta.
    assert (E1 : core (computeResidualNorms p s) = core (computeResidualNorms p s')).
    { rewrite <- (core_norms p s), <- (core_norms p s'), E. reflexivity. }
    destruct (norms_log p s) as (_ & A2 & A3 & _). pose proof (jacOK_ext p s _ A2 A3 J) as J1.
    revert E1 J1. generalize (computeResidualNorms p s) (computeResidualNorms p s'). clear s s' E J A2 A3. intros s s' E J.
    destruct (verbose_out s s' E J) as [V1 V2]. apply both; auto. clear s s' E J V1 V2. intros _ s s' E J.
    change (convergedTest ob s) with (convergedTest o (core s)). change (convergedTest o s') with (convergedTest o (core s')).
    rewrite E. destruct (convergedTest o (core s')).
    + apply (resp_end o k). exact E.
    + destruct n as [|n]; [cbn; congruence|]. apply IH; auto.
Qed.
(** the step with and without output *)
Lemma verbose_step_ k s s' : core s = core s' -> mapO (step_ p ob k s) = mapO (step_ p o k s').
Proof.
  intros E. unfold step_. replace (s_initialized s) with (s_initialized s') by (change (s_initialized (core s') = s_initialized (core s)); congruence).
  destruct (s_initialized s'); cbn [negb]; [|cbn; congruence].
  fold (started k s). fold (started k s').
  assert (E0 : core (started k s) = core (started k s')).
  { assert (G : forall t : st, core (started k (core t)) = core (started k t)) by (intros t; unfold started; destruct k, t; crefl).
    rewrite <- (G s), <- (G s'), E. reflexivity. }
  revert E0. generalize (started k s) (started k s'). clear s s' E. intros s s' E.
  apply both.
  { apply (resp_predict p o). exact E. }
  { apply (logs_jacOK 0 s (predict p o k s)), log_predict. }
  clear s s' E. intros _ s s' E J. apply both.
  { apply resp_residual. exact E. }
  { apply (logs_jacOK 1 s), log_residual. auto. }
  clear s s' E J. intros _ s s' E J. cbv zeta.
  assert (E1 : core (computeResidualNorms p s) = core (computeResidualNorms p s')).
  { rewrite <- (core_norms p s), <- (core_norms p s'), E. reflexivity. }
  destruct (norms_log p s) as (_ & A2 & A3 & _). pose proof (jacOK_ext p s _ A2 A3 J) as J1.
  revert E1 J1. generalize (computeResidualNorms p s) (computeResidualNorms p s'). clear s s' E J A2 A3. intros s s' E J.
  destruct (verbose_out s s' E J) as [V1 V2]. apply both; auto. clear s s' E J V1 V2. intros _ s s' E J.
  apply both.
  { change (o_quasi ob) with (o_quasi o). destruct (o_quasi o); [apply resp_quasiPredictor; exact E|cbn; congruence]. }
  { change (o_quasi ob) with (o_quasi o). destruct (o_quasi o); [apply (logs_jacOK 0 s), log_quasiPredictor|intros; congruence]. }
  clear s s' E J. intros _ s s' E J. apply verbose_loop.
  - change (set_stabPrev 0%Z (core s) = set_stabPrev 0%Z (core s')). congruence.
  - apply (jacOK_ext p s); auto.
Qed.
End Compare.
