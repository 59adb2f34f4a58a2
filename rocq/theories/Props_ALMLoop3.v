(** converged() and the loop of the quasistatic programs: C116, C117. *)
From Verif Require Import VS Status RunTac ALMBase ALMBaseProofs ALMStep ALMLog ALMPoints ALMRun ALMSingular APALMSolver NewtonConv Props_Static6 Props_ALMStep Props_ALMSingular Props_ALMConverge Props_ALMConverge2 ALMLoop Props_ALMLoop Props_ALMLoop2 ALMLoop2.
Local Open Scope R_scope.

(** ** C116: converged() and the status *)
Section Conv.
Context {S : VS} {Mat : Type}.
Variables (p : problem S Mat) (o : opts) (k : kind).
Implicit Types s : st S Mat.
(** m_converged is false, if something is thrown too (what is not caught excepted) *)
Definition nc {A} (x : out S Mat A) : Prop := match x with Ret _ s => s_conv s = false | Exc e s => s_conv s = false \/ statusOf e = None end.
Definition ncE {A} (x : out S Mat A) : Prop := match x with Ret _ _ => True | Exc e s => s_conv s = false \/ statusOf e = None end.
Lemma ncE_bind {A B} (x : out S Mat A) (f : A -> st S Mat -> out S Mat B) : nc x -> (forall a s, s_conv s = false -> ncE (f a s)) -> ncE (obind x f).
Proof. destruct x as [a s|e s]; cbn; auto. Qed.
Lemma nc_keep2 {A} (x : out S Mat A) s : keep2 (outSt x) = keep2 s -> s_conv s = false -> nc x.
Proof. intros H E. assert (Z : s_conv (outSt x) = false) by (injection H; intros; congruence). destruct x; [exact Z|left; exact Z]. Qed.
Lemma nc_keep4 {A} (x : out S Mat A) s : keep4 (outSt x) = keep4 s -> s_conv s = false -> nc x.
Proof. intros H. apply nc_keep2. apply keep32, keep43, H. Qed.
Lemma conv_loop : forall n i s, s_conv s = false -> ncE (stepLoop p o k n i s).
Proof.
  induction n as [|n IH]; intros i s H; [exact I|]. rewrite stepLoop_S. cbv zeta. set (s0 := set_numIt i s). assert (H0 : s_conv s0 = false) by exact H. clearbody s0.
  apply ncE_bind; [destruct (newJacobian _ _); [exact (nc_keep4 _ _ (quasiNewtonIteration_keep p k s0) H0)|exact H0]|]. intros _ s1 H1.
  apply ncE_bind; [exact (nc_keep2 _ _ (keep32 _ _ (iteration_keep p o k s1)) H1)|]. intros _ s2 H2.
  apply ncE_bind; [exact (nc_keep4 _ _ (computeStability_keep p o false s2) H2)|]. intros _ s3 H3.
  apply ncE_bind; [exact (nc_keep4 _ _ (computeResidual_keep p s3) H3)|]. intros _ s4 H4.
  assert (H5 : s_conv (computeResidualNorms p s4) = false) by (unfold computeResidualNorms; destruct (Nat.eqb _ _); exact H4).
  apply ncE_bind; [destruct (o_verbose o); [exact (nc_keep4 _ _ (stepOutput_keep p o _) H5)|exact H5]|]. intros _ s6 H6.
  destruct (convergedTest _ _).
  - destruct (s_adaptive _); [|exact I]. unfold computeLength. destruct (Nat.eqb _ _); [right; reflexivity|exact I].
  - destruct n; [left; exact H6|apply IH; exact H6].
Qed.
Lemma conv_step_ s : s_initialized s = true -> ncE (step_ p o k s).
Proof.
  intros HI. unfold step_. rewrite HI. cbn [negb]. cbv zeta. fold (started k s). assert (H0 : s_conv (started k s) = false) by (destruct k; reflexivity).
  apply ncE_bind; [exact (nc_keep2 _ _ (predict_keep p o k _) H0)|]. intros _ s1 H1.
  apply ncE_bind; [exact (nc_keep4 _ _ (computeResidual_keep p s1) H1)|]. intros _ s2 H2.
  assert (H3 : s_conv (computeResidualNorms p s2) = false) by (unfold computeResidualNorms; destruct (Nat.eqb _ _); exact H2).
  apply ncE_bind; [destruct (o_verbose o); [exact (nc_keep4 _ _ (stepOutput_keep p o _) H3)|exact H3]|]. intros _ s4 H4.
  apply ncE_bind; [destruct (o_quasi o); [exact (nc_keep4 _ _ (quasiNewtonPredictor_keep p k _) H4)|exact H4]|]. intros _ s5 H5.
  apply conv_loop. exact H5.
Qed.
End Conv.
(** After step(), converged() is true exactly if the status is Success; MaxIter at least 2. *)
Theorem C116_converged_is_success_partial {S : VS} {Mat : Type} (p : problem S Mat) (o : opts) (k : kind) (s s' : st S Mat) :
  s_initialized s = true -> (2 <= o_maxIt o)%nat -> step p o k s = Ret tt s' -> (s_conv s' = true <-> s_stat s' = Success).
Proof.
  intros HI HM E. split.
  - intros HC. destruct (step_cases p o k s) as [(s1 & E1 & E2)|(e & s1 & E1 & E2)].
    + rewrite E in E2. injection E2 as ->. reflexivity.
    + pose proof (conv_step_ p o k s HI) as N. rewrite E1 in N. cbn in N. destruct E2 as [(t & ET & _ & E2)|[_ E2]]; rewrite E in E2; [|discriminate]. injection E2 as ->. cbn in HC. destruct N as [N|N]; congruence.
  - intros HS. destruct (step_outcome p o k s s' E) as [(A & _)|[(_ & A & _)|(_ & _ & sP & sI & sJ & s1 & s7 & C & ->)]]; [congruence|lia|].
    destruct C as [_ _ _ _ _ _ _ _ F]. cbn. apply (finished_UL o k s1 s7 F).
Qed.
Print Assumptions C116_converged_is_success_partial.
(** With MaxIter = 1 step() returns Success without an iteration, and converged() is false. *)
Theorem C116_refuted : exists s', step exSpring (exOpts 1) LoadControl (exSt VS_R R 3) = Ret tt s' /\ s_stat s' = Success /\ s_conv s' = false.
Proof. eexists. split; [ev|]. split; reflexivity. Qed.
Print Assumptions C116_refuted.

(** ** C117: the loop of the quasistatic programs *)
Section Quasi.
Context {S : VS} {Mat : Type}.
Variables (p : problem S Mat) (o : opts) (k : kind) (switch : bool) (len2 : option R) (dLb0 : R).
Implicit Types s : st S Mat.
Record qinv (c : qst S Mat) : Prop := {
  qv_n : length (q_out c) = q_k c; qv_ch : chainOk p o k dLb0 (v0, 0) (q_out c) (q_U c, q_L c); qv_U : s_U (q_s c) = q_U c; qv_L : s_L (q_s c) = q_L c;
  qv_len : s_len (q_s c) = q_dLb c; qv_g : s_guess (q_s c) = None; qv_in : s_initialized (q_s c) = true; qv_0 : q_dLb0 c = dLb0; qv_pow : exists j : nat, q_dLb c = dLb0 / 2 ^ j }.
(** without SingularPoint only the stability is computed *)
Lemma qSingular_off u l s s' b : qSingular p o k false switch u l s = Ret b s' -> b = false /\ keep4 s' = keep4 s.
Proof.
  unfold qSingular. pose proof (computeStability_keep p o false s) as K. destruct (computeStability p o false s) as [a s1|]; [|discriminate]. cbn [obind]. rewrite andb_false_r.
  intros H. injection H as <- <-. split; [reflexivity|exact K].
Qed.
Lemma qinv_pass c c' : (2 <= o_maxIt o)%nat -> qinv c -> qPass p o k false switch len2 c = QNext c' -> qinv c'.
Proof.
  intros HM [I1 I2 I3 I4 I5 I7 I9 I10 (j & I8)]. unfold qPass. destruct (step p o k (q_s c)) as [[] s|] eqn:E; [|discriminate].
  pose proof (step_guess p o k (q_s c) I7) as G. rewrite E in G. cbn in G. pose proof (step_init p o k _ _ E) as IN. rewrite I9 in IN.
  destruct (s_conv s) eqn:EC; cbn [negb].
  - destruct (qSingular p o k false switch (q_U c) (q_L c) s) as [b t|] eqn:EQ; [|discriminate]. intros H. injection H as <-.
    destruct (qSingular_off _ _ _ _ _ EQ) as [-> K]. injection K. intros.
    assert (ST : s_stat s = Success) by (apply (C116_converged_is_success_partial p o k (q_s c) s I9 HM E); exact EC).
    destruct (C24_success_meets_tolerances_partial p o k _ s HM E ST) as (ev2 & v & m & pts & r & Q1 & Q2 & Q3 & Q4 & Q5 & Q6 & Q7).
    constructor; cbn.
    + rewrite app_length, I1. cbn. lia.
    + replace (s_U t) with (s_U s) by congruence. replace (s_L t) with (s_L s) by congruence.
      eapply chainOk_snoc with (s := q_s c) (s' := s) (j := j); try eassumption; try reflexivity; [congruence|rewrite <- I3; exact Q7|].
      intros ->. destruct (C32_load_control_partial p o (q_s c) s HM I7 E) as [Q _]. rewrite (Q ST), I4, I5, I8. reflexivity.
    + congruence.
    + congruence.
    + reflexivity.
    + congruence.
    + congruence.
    + exact I10.
    + exists 0%nat. rewrite I10. cbn. field.
  - intros H. injection H as <-. constructor; cbn; auto. exists (Datatypes.S j). rewrite I8. apply half_pow.
Qed.
Lemma qinv_run steps : (2 <= o_maxIt o)%nat -> forall fuel c c', qinv c -> qRun p o k false switch len2 steps fuel c = QNext c' -> qinv c' /\ (steps <= q_k c')%nat /\ ((q_k c <= steps)%nat -> q_k c' = steps).
Proof.
  intros HM. induction fuel as [|fuel IH]; intros c c' I R; cbn [qRun] in R; destruct (Nat.ltb_spec (q_k c) steps) as [H|H]; try discriminate R; try (injection R as <-; split; [exact I|split; lia]).
  destruct (qPass p o k false switch len2 c) as [c1|] eqn:E; [|discriminate R]. destruct (IH _ _ (qinv_pass _ _ HM I E) R) as (A & B & C). split; [exact A|]. split; [exact B|]. intros _. apply C.
  unfold qPass in E. destruct (step p o k (q_s c)) as [[] s|]; [|discriminate]. destruct (negb _); [injection E as <-; cbn; lia|]. destruct (qSingular _ _ _ _ _ _ _ _); [|discriminate]. injection E as <-. cbn. lia.
Qed.
End Quasi.
(** Without SingularPoint: exactly [steps] points are written, and every one is the end of a step
    that succeeded within the tolerances, from the point before it and by the length set or that
    length halved (under load control the load grows by it). MaxIter at least 2. *)
Theorem C117_points_partial {S : VS} {Mat : Type} (p : problem S Mat) (o : opts) (k : kind) (switch : bool) (len2 : option R) (steps fuel : nat) (s : st S Mat) (c : qst S Mat) :
  (2 <= o_maxIt o)%nat -> s_initialized s = true -> s_U s = v0 -> s_L s = 0 -> s_guess s = None ->
  qMain p o k false switch len2 steps fuel s = QNext c ->
  length (q_out c) = steps /\ chainOk p o k (s_len s) (v0, 0) (q_out c) (q_U c, q_L c) /\ s_U (q_s c) = q_U c /\ s_L (q_s c) = q_L c.
Proof.
  intros HM HI HU HL HG H. unfold qMain in H. cbv zeta in H.
  match type of H with qRun _ _ _ _ _ _ _ _ ?c0 = _ => destruct (qinv_run p o k switch len2 (s_len s) steps HM fuel c0 c) as (I & K1 & K2); [|exact H|] end.
  - constructor; cbn; auto; [constructor|exists 0%nat; cbn; field].
  - cbn in K2. specialize (K2 ltac:(lia)). destruct I. repeat split; congruence.
Qed.
Print Assumptions C117_points_partial.
(** evaluation of the loop *)
Lemma q_again {S : VS} {Mat} (p : problem S Mat) o k sing sw len2 steps fuel c s r : (q_k c < steps)%nat -> step p o k (q_s c) = Ret tt s -> s_conv s = false ->
  qRun p o k sing sw len2 steps fuel (mkQ (setSolution (q_U c) (q_L c) (setLength (q_dLb c / 2) s)) (q_dLb c / 2) (q_dLb0 c) (q_U c) (q_L c) (q_k c) (q_out c)) = r ->
  qRun p o k sing sw len2 steps (Datatypes.S fuel) c = r.
Proof. intros H E T <-. cbn [qRun]. rewrite (proj2 (Nat.ltb_lt _ _) H). unfold qPass. rewrite E, T. reflexivity. Qed.
Lemma q_accept {S : VS} {Mat} (p : problem S Mat) o k sing sw len2 steps fuel c s b s2 r : (q_k c < steps)%nat -> step p o k (q_s c) = Ret tt s -> s_conv s = true ->
  qSingular p o k sing sw (q_U c) (q_L c) s = Ret b s2 ->
  (let d := if b then match len2 with Some l => l | None => q_dLb0 c end else q_dLb0 c in
   qRun p o k sing sw len2 steps fuel (mkQ (setLength d s2) d d (s_U s2) (s_L s2) (Datatypes.S (q_k c)) (q_out c ++ [(s_U s2, s_L s2)]))) = r ->
  qRun p o k sing sw len2 steps (Datatypes.S fuel) c = r.
Proof. intros H E T Q <-. cbn [qRun]. rewrite (proj2 (Nat.ltb_lt _ _) H). unfold qPass. rewrite E, T. cbn [negb]. rewrite Q. reflexivity. Qed.
Lemma q_done {S : VS} {Mat} (p : problem S Mat) o k sing sw len2 steps fuel (c : qst S Mat) : (steps <= q_k c)%nat -> qRun p o k sing sw len2 steps fuel c = QNext c.
Proof. intros H. destruct fuel; cbn [qRun]; rewrite (proj2 (Nat.ltb_ge _ _) H); reflexivity. Qed.
Ltac qagain := eapply q_again; [cbn; lia|cbn [q_s q_U q_L q_dLb q_dLb0]; ev|reflexivity|].
Ltac qaccept := eapply q_accept; [cbn; lia|cbn [q_s q_U q_L q_dLb q_dLb0]; ev|reflexivity|cbn [q_s q_U q_L q_dLb q_dLb0]; ev|cbv zeta].
(** With SingularPoint it is false. A spring of negative stiffness, load control with length 1: the
    first step succeeds at load 1, but the stability has changed; the test finds a limit point, so
    computeSingularPoint only goes back to the point before, and the origin is written. *)
Definition inverted : problem VS_R R := @mkProblem VS_R R
  (fun u l => Some (- 2 * u - l)) (fun _ _ => Some (-2)) (fun _ => true)
  (fun m f => Some (f / m)) (fun m x => m * x) (fun m => [m]) (fun m => Some [m]) 1 1 1.
Theorem C117_refuted : exists c, qMain inverted (exOpts 5) LoadControl true false None 2 2 (exSt VS_R R 1) = QNext c /\ q_out c = [(0, 0); (-1/2, 1)].
Proof.
  eexists. split.
  - unfold qMain. cbv zeta. qaccept. qaccept. apply q_done. cbn. lia.
  - rcbv. reflexivity.
Qed.
Print Assumptions C117_refuted.
(** the spring of C114 whose assembly fails beyond u = 1, length 8/3: the steps tried are 8/3, 4/3 *)
Example C117_example : exists c, qMain limited (exOpts 5) LoadControl false false None 1 2 (exSt VS_R R (8/3)) = QNext c /\ q_out c = [(2/3, 4/3)].
Proof.
  eexists. split.
  - unfold qMain. cbv zeta. qagain. qaccept. apply q_done. cbn. lia.
  - rcbv. reflexivity.
Qed.

(** ** C118: the loop of the quasistatic programs ends *)
(** the states in which a pass of the loop starts *)
Inductive qpasses {S : VS} {Mat : Type} (p : problem S Mat) (o : opts) (k : kind) (sing sw : bool) (len2 : option R) (c0 : qst S Mat) : qst S Mat -> Prop :=
  | qpasses_0 : qpasses p o k sing sw len2 c0 c0
  | qpasses_S c c' : qpasses p o k sing sw len2 c0 c -> qPass p o k sing sw len2 c = QNext c' -> qpasses p o k sing sw len2 c0 c'.
Section QEnd.
Context {S : VS} {Mat : Type}.
Variables (p : problem S Mat) (o : opts) (k : kind) (sing sw : bool) (len2 : option R) (eps : R) (steps m : nat) (c0 : qst S Mat).
Hypothesis H0 : q_dLb0 c0 <= 2 ^ m * eps. Hypothesis H2 : forall l, len2 = Some l -> l <= 2 ^ m * eps.
Hypothesis Hs : forall c, qpasses p o k sing sw len2 c0 c -> (q_k c < steps)%nat ->
  exists s', step p o k (q_s c) = Ret tt s' /\ (q_dLb c <= eps -> s_conv s' = true) /\
    (s_conv s' = true -> exists b t, qSingular p o k sing sw (q_U c) (q_L c) s' = Ret b t).
Lemma q_more : forall f1 f2 c c', (f1 <= f2)%nat -> qRun p o k sing sw len2 steps f1 c = QNext c' -> qRun p o k sing sw len2 steps f2 c = QNext c'.
Proof.
  clear. induction f1 as [|f1 IH]; intros f2 c c' H R.
  - cbn [qRun] in R. destruct (Nat.ltb_spec (q_k c) steps); [discriminate|]. injection R as <-. apply q_done. lia.
  - destruct f2 as [|f2]; [lia|]. cbn [qRun] in *. destruct (q_k c <? steps)%nat; [|exact R]. destruct (qPass p o k sing sw len2 c); [|exact R]. apply (IH f2); [lia|exact R].
Qed.
Lemma q_len0 c : qpasses p o k sing sw len2 c0 c -> q_dLb0 c <= 2 ^ m * eps.
Proof.
  induction 1 as [|c c' P IH E]; [exact H0|]. unfold qPass in E. destruct (step _ _ _ _) as [[] s|]; [|discriminate]. destruct (negb _); [injection E as <-; exact IH|].
  destruct (qSingular _ _ _ _ _ _ _ _) as [b t|]; [|discriminate]. injection E as <-. cbn. destruct b; [|exact IH]. destruct len2 as [l|]; [apply H2; reflexivity|exact IH].
Qed.
Lemma q_ends : forall n r c, qpasses p o k sing sw len2 c0 c -> (q_k c + n = steps)%nat -> (r <= m)%nat -> q_dLb c <= 2 ^ r * eps ->
  exists c', qRun p o k sing sw len2 steps (n * Datatypes.S m - (m - r)) c = QNext c'.
Proof.
  induction n as [|n IHn].
  - intros r c P K R L. exists c. apply q_done. lia.
  - assert (ACC : forall c s', qpasses p o k sing sw len2 c0 c -> (q_k c + Datatypes.S n = steps)%nat -> step p o k (q_s c) = Ret tt s' -> s_conv s' = true ->
      (exists b t, qSingular p o k sing sw (q_U c) (q_L c) s' = Ret b t) -> exists c', qRun p o k sing sw len2 steps (Datatypes.S (n * Datatypes.S m)) c = QNext c').
    { intros c s' P K E T (b & t & Q).
      match type of Q with _ => eassert (PS : qPass p o k sing sw len2 c = QNext _) by (unfold qPass; rewrite E, T; cbn [negb]; rewrite Q; reflexivity) end.
      pose proof (qpasses_S _ _ _ _ _ _ _ _ _ P PS) as P'. pose proof (q_len0 _ P') as L'. destruct (IHn m _ P' ltac:(cbn; lia) (le_n m) L') as (c' & C).
      exists c'. eapply q_accept; [lia|exact E|exact T|exact Q|]. eapply q_more; [|exact C]. lia. }
    induction r as [|r IHr]; intros c P K R L.
    + destruct (Hs c P ltac:(lia)) as (s' & E & T & Q). cbn in L. specialize (T ltac:(lra)). destruct (ACC c s' P K E T (Q T)) as (c' & C).
      exists c'. eapply q_more; [|exact C]. lia.
    + destruct (Hs c P ltac:(lia)) as (s' & E & _ & Q). destruct (s_conv s') eqn:T.
      * destruct (ACC c s' P K E T (Q eq_refl)) as (c' & C). exists c'. eapply q_more; [|exact C]. lia.
      * eassert (PS : qPass p o k sing sw len2 c = QNext _) by (unfold qPass; rewrite E, T; reflexivity).
        destruct (IHr _ (qpasses_S _ _ _ _ _ _ _ _ _ P PS) ltac:(cbn; lia) ltac:(lia)) as (c' & C); [cbn [q_dLb]; cbn [pow] in L; lra|].
        exists c'. replace (Datatypes.S n * Datatypes.S m - (m - Datatypes.S r))%nat with (Datatypes.S (Datatypes.S n * Datatypes.S m - (m - r))) by lia.
        eapply q_again; [lia|exact E|exact T|exact C].
Qed.
End QEnd.
(** If every step made ends normally, converges once its length is at most eps, and the search for
    singular points ends normally, the loop ends after at most steps * (m + 1) passes, where the
    lengths set are at most 2^m eps. *)
Theorem C118_terminates {S : VS} {Mat : Type} (p : problem S Mat) (o : opts) (k : kind) (sing sw : bool) (len2 : option R) (eps : R) (steps m : nat) (s : st S Mat) :
  s_len s <= 2 ^ m * eps -> (forall l, len2 = Some l -> l <= 2 ^ m * eps) ->
  (forall c, qpasses p o k sing sw len2 (mkQ (setIndicator 0 s) (s_len s) (s_len s) v0 0 0 []) c -> (q_k c < steps)%nat ->
    exists s', step p o k (q_s c) = Ret tt s' /\ (q_dLb c <= eps -> s_conv s' = true) /\
      (s_conv s' = true -> exists b t, qSingular p o k sing sw (q_U c) (q_L c) s' = Ret b t)) ->
  exists c, qMain p o k sing sw len2 steps (steps * (m + 1)) s = QNext c.
Proof.
  intros H1 H2 Hs. destruct (q_ends p o k sing sw len2 eps steps m (mkQ (setIndicator 0 s) (s_len s) (s_len s) v0 0 0 []) H1 H2 Hs steps m _ (qpasses_0 _ _ _ _ _ _ _) eq_refl (le_n m) H1) as (c & C).
  exists c. unfold qMain. cbv zeta. replace (steps * (m + 1))%nat with (steps * Datatypes.S m - (m - m))%nat by lia. exact C.
Qed.
Print Assumptions C118_terminates.
(** after a step of load control that returned Success there is a tangent matrix *)
Section Jac.
Context {S : VS} {Mat : Type}.
Variables (p : problem S Mat) (o : opts).
Implicit Types s : st S Mat.
Definition hj {A} (x : out S Mat A) : Prop := match x with Ret _ s => s_jac s <> None | Exc _ _ => True end.
Lemma hj_bind {A B} (x : out S Mat A) (f : A -> st S Mat -> out S Mat B) : hj x -> (forall a s, s_jac s <> None -> hj (f a s)) -> hj (obind x f).
Proof. destruct x as [a s|e s]; cbn; auto. Qed.
Lemma hj_residual s : s_jac s <> None -> hj (computeResidual p s).
Proof. unfold computeResidual, computeResidualAt. cbv zeta. destruct (p_residual _ _ _); [auto|intros; exact I]. Qed.
Lemma hj_factor m s : s_jac s <> None -> hj (factorizeMatrix p m s).
Proof. unfold factorizeMatrix. cbv zeta. destruct (p_factor p m); [auto|intros; exact I]. Qed.
Lemma hj_solve f s : s_jac s <> None -> hj (solveSystem p f s).
Proof. unfold solveSystem. destruct (s_fact s); [|intros; exact I]. cbv zeta. destruct (p_solve _ _ _); [auto|intros; exact I]. Qed.
Lemma hj_jac s : hj (stepJacobian p s).
Proof.
  unfold stepJacobian, refreshJacobian. destruct (computeJacobianAt _ _ _ _) as [m s1|]; [|exact I]. cbn [obind]. cbv zeta. apply hj_factor. discriminate.
Qed.
Lemma hj_stab s : s_jac s <> None -> hj (computeStability p o false s).
Proof.
  intros J. assert (H : s_jac (outSt (computeStability_ p o (s_U s) false s)) = s_jac s).
  { unfold computeStability_. cbn [obind]. apply bind_proj.
    - unfold stabilityVec, factorizeMatrix. destruct (o_bif o); try reflexivity; [destruct (o_ldlt o); [|reflexivity]|]; destruct (s_jac s) eqn:E; cbn; try exact E; [destruct (p_factor p m)|destruct (p_eig p m)]; exact E.
    - intros a s1 _ H. destruct (minCoeff a); exact H. }
  unfold computeStability. destruct (computeStability_ _ _ _ _ _) as [a s1|e s1]; cbn in H |- *; [congruence|]. destruct (statusOf e); cbn; [congruence|exact I].
Qed.
Lemma hj_quasi s : hj (quasiNewtonIteration p LoadControl s).
Proof. apply hj_bind; [apply hj_jac|auto]. Qed.
Lemma hj_ut s : s_jac s <> None -> hj (computeUt p s).
Proof. intros J. apply hj_bind; [apply hj_solve, J|auto]. Qed.
Lemma hj_ubar s : s_jac s <> None -> hj (computeUbar p s).
Proof. intros J. apply hj_bind; [apply hj_solve, J|auto]. Qed.
Lemma hj_predict s : hj (predict p o LoadControl s).
Proof.
  assert (H : forall s, hj (predictor p o LoadControl s)) by (intros z; apply hj_bind; [apply hj_jac|intros; apply hj_bind; [apply hj_ut; auto|auto]]).
  unfold predict. destruct (s_guess s) as [[ug lg]|]; [|apply H]. destruct (_ && _); [|apply H]. apply hj_bind; [apply hj_jac|intros; apply hj_bind; [apply hj_ut; auto|auto]].
Qed.
Lemma hj_loop : forall n i s, s_jac s <> None -> hj (stepLoop p o LoadControl n i s).
Proof.
  induction n as [|n IH]; intros i s J; [exact J|]. rewrite stepLoop_S. cbv zeta. apply hj_bind; [destruct (newJacobian _ _); [apply hj_quasi|exact J]|]. intros _ s1 J1.
  apply hj_bind; [apply hj_bind; [apply hj_ubar, J1|auto]|]. intros _ s2 J2. apply hj_bind; [apply hj_stab, J2|]. intros _ s3 J3. apply hj_bind; [apply hj_residual, J3|]. intros _ s4 J4.
  assert (J5 : s_jac (computeResidualNorms p s4) <> None) by (unfold computeResidualNorms; destruct (Nat.eqb _ _); exact J4).
  apply hj_bind; [destruct (o_verbose o); [apply hj_stab, J5|exact J5]|]. intros _ s5 J6. destruct (convergedTest _ _).
  - destruct (s_adaptive _); [|exact J6]. unfold computeLength. destruct (Nat.eqb _ _); [exact I|exact J6].
  - destruct n; [exact I|apply IH, J6].
Qed.
Lemma load_jac s s' : s_initialized s = true -> step p o LoadControl s = Ret tt s' -> s_stat s' = Success -> s_jac s' <> None.
Proof.
  intros HI E ST. assert (H : hj (step_ p o LoadControl s)).
  { unfold step_. destruct (negb _); [exact I|]. cbv zeta. apply hj_bind; [apply hj_predict|]. intros _ s1 J1. apply hj_bind; [apply hj_residual, J1|]. intros _ s2 J2.
    assert (J3 : s_jac (computeResidualNorms p s2) <> None) by (unfold computeResidualNorms; destruct (Nat.eqb _ _); exact J2).
    apply hj_bind; [destruct (o_verbose o); [apply hj_stab, J3|exact J3]|]. intros _ s3 J4. apply hj_bind; [|intros; apply hj_loop; auto].
    destruct (o_quasi o); [|exact J4]. apply hj_bind; [apply hj_quasi|intros; apply hj_ubar; auto]. }
  destruct (step_cases p o LoadControl s) as [(s1 & E1 & E2)|(e & s1 & E1 & E2)].
  - rewrite E1 in H. rewrite E in E2. injection E2 as ->. exact H.
  - destruct E2 as [(t & _ & N & E2)|[_ E2]]; rewrite E in E2; [|discriminate]. injection E2 as ->. cbn in ST. congruence.
Qed.
(** with a tangent matrix, computeStability ends with a status *)
Lemma stab_total s : wellPosed p o -> s_jac s <> None -> exists t, computeStability p o false s = Ret tt t.
Proof.
  intros (W1 & W2 & W3 & W4) J. assert (H : forall e t, computeStability_ p o (s_U s) false s = Exc e t -> statusOf e <> None).
  { assert (M : forall l, l <> [] -> minCoeff l <> None) by (intros [|x l] H; [congruence|]; cbn; destruct (minCoeff l); discriminate).
    unfold computeStability_. cbn [obind]. intros e t. destruct (stabilityVec p o s) as [v s1|e1 s1] eqn:E; cbn [obind].
    - assert (V : v <> []).
      { unfold stabilityVec in E. destruct (o_bif o); try congruence.
        - injection E as <- _. destruct (p_numDof p); [lia|discriminate].
        - destruct (o_ldlt o); [|discriminate]. destruct (s_jac s); [|discriminate]. destruct (factorizeMatrix p m s); [|discriminate]. cbn in E. injection E as <- _. apply W1.
        - destruct (s_jac s); [|discriminate]. cbv zeta in E. destruct (p_eig p m) eqn:EE; [|discriminate]. injection E as <- _. exact (W2 _ _ EE). }
      specialize (M v V). cbv zeta. destruct (minCoeff v); [discriminate|congruence].
    - intros K. injection K as -> ->. unfold stabilityVec in E. destruct (o_bif o); try discriminate.
      + destruct (o_ldlt o); [|injection E as <- _; discriminate]. destruct (s_jac s); [|congruence]. unfold factorizeMatrix in E. cbv zeta in E. destruct (p_factor p m); [discriminate|]. injection E as <- _. discriminate.
      + destruct (s_jac s); [|congruence]. cbv zeta in E. destruct (p_eig p m); [discriminate|]. injection E as <- _. discriminate. }
  unfold computeStability. destruct (computeStability_ p o (s_U s) false s) as [a s1|e s1]; [eexists; reflexivity|]. specialize (H _ _ eq_refl). destruct (statusOf e); [eexists; reflexivity|congruence].
Qed.
End Jac.
(** Under load control, from a regular equilibrium at the origin, the first point is written
    whatever the length: at the load length / 2^j, within the tolerance on the force. *)
Theorem C118_first_point {S : VS} {Mat : Type} (p : problem S Mat) (o : opts) (sw : bool) (len2 : option R) (res : S -> R -> S) (mt : Mat) (rho beta gamma : R) (s : st S Mat) :
  o_quasi o = false -> stabReady p o -> wellPosed p o -> (2 <= o_maxIt o)%nat -> 0 < o_tolF o -> 0 < o_tolU o -> p_F p <> v0 ->
  res v0 0 = v0 -> 0 < rho -> 0 <= beta -> 0 <= gamma -> regularALM p LoadControl res v0 0 v0 0 rho beta gamma -> (forall du, p_jacobian p v0 du = Some mt) ->
  s_initialized s = true -> s_U s = v0 -> s_L s = 0 -> 0 < s_len s -> s_guess s = None ->
  exists fuel c u (j : nat) r v, qMain p o LoadControl false sw len2 1 fuel s = QNext c /\ q_out c = [(u, s_len s / 2 ^ j)] /\
    p_residual p u (s_len s / 2 ^ j) = Some r /\ norm r < o_tolF o * norm (v *v p_F p).
Proof.
  intros HQ SR0 WP HM TF TU NF EQ Hr Hb Hg RG HJ HI HU HL Hd HG.
  destruct (C113_short_load_steps p o res v0 0 mt rho beta gamma HQ SR0 HM TF TU NF EQ Hr Hb Hg RG HJ) as (eps & Pe & C).
  assert (MM : exists m : nat, s_len s <= 2 ^ m * eps).
  { destruct (Pow_x_infinity 2 ltac:(rewrite Rabs_pos_eq; lra) (s_len s / eps)) as (m & Hm). exists m. specialize (Hm m (le_n m)). rewrite Rabs_pos_eq in Hm by (apply pow_le; lra).
    apply (Rmult_le_reg_r (/ eps)); [apply Rinv_0_lt_compat; lra|]. rewrite Rmult_assoc, Rinv_r, Rmult_1_r by lra. lra. }
  destruct MM as (m & Hm). (* without SingularPoint, Length2 plays no role *)
  assert (PF : forall c, qPass p o LoadControl false sw len2 c = qPass p o LoadControl false sw None c).
  { intros c. unfold qPass. destruct (step _ _ _ _); [|reflexivity]. destruct (negb _); [reflexivity|]. destruct (qSingular _ _ _ _ _ _ _ _) as [b t|] eqn:Q; [|reflexivity]. destruct (qSingular_off _ _ _ _ _ _ _ _ _ Q) as [-> _]. reflexivity. }
  assert (OFF : forall f c, qRun p o LoadControl false sw len2 1 f c = qRun p o LoadControl false sw None 1 f c).
  { induction f as [|f IH]; intros c; [reflexivity|]. cbn [qRun]. destruct (_ <? _)%nat; [|reflexivity]. rewrite PF. destruct (qPass p o LoadControl false sw None c); [apply IH|reflexivity]. }
  destruct (C118_terminates p o LoadControl false sw None eps 1 m s Hm) as (c & R); [discriminate| |].
  - assert (IV : forall c, qpasses p o LoadControl false sw None (mkQ (setIndicator 0 s) (s_len s) (s_len s) v0 0 0 []) c -> qinv p o LoadControl (s_len s) c /\ 0 < q_dLb c /\ ((q_k c < 1)%nat -> q_U c = v0 /\ q_L c = 0)).
    { intros c P. induction P as [|c c' P IH PS].
      - split; [constructor; cbn; auto; [constructor|exists 0%nat; cbn; field]|]. cbn. repeat split; lra.
      - destruct IH as (I & L1 & Z). split; [exact (qinv_pass _ _ _ _ _ _ _ _ HM I PS)|]. destruct I as [_ _ _ _ _ _ _ I10 _]. unfold qPass in PS. destruct (step p o LoadControl (q_s c)) as [[] s'|]; [|discriminate].
        destruct (negb (s_conv s')); [injection PS as <-; cbn; split; [lra|exact Z]|]. destruct (qSingular _ _ _ _ _ _ _ _) as [b t|] eqn:Q; [|discriminate]. destruct (qSingular_off _ _ _ _ _ _ _ _ _ Q) as [-> _].
        injection PS as <-. cbn. rewrite I10. split; [exact Hd|lia]. }
    intros c P K. destruct (IV c P) as (I & L1 & Z). destruct (Z K) as [Z1 Z2]. destruct I as [I1 I2 I3 I4 I5 I7 I9 I10 I8].
    destruct (load_total p o (q_s c) WP I9) as (s' & E). exists s'. split; [exact E|]. split.
    + intros LE. destruct (C (q_s c)) as (s2 & E2 & ST & _); try congruence; [rewrite I5; lra|]. rewrite E in E2. injection E2 as <-. apply (C116_converged_is_success_partial p o LoadControl (q_s c) s' I9 HM E). exact ST.
    + intros CV. destruct (stab_total p o s' WP) as (t & T); [|unfold qSingular; rewrite T; cbn [obind]; rewrite andb_false_r; eexists; eexists; reflexivity].
      apply (load_jac p o (q_s c) s' I9 E). apply (C116_converged_is_success_partial p o LoadControl (q_s c) s' I9 HM E). exact CV.
  - destruct (C117_points_partial p o LoadControl sw None 1 (1 * (m + 1)) s c HM HI HU HL HG R) as (LE & CH & _).
    destruct (q_out c) as [|[u l] [|? ?]] eqn:EO; try discriminate.
    inversion CH as [|l1 u0 l0 u1 l2 j s1 s2 ev2 v mm pts r CC A1 A2 A3 A4 A5 A6 A7 A8 A9 A10 A11 A12 A13 Q1 Q2]. destruct l1 as [|z l1]; [|destruct l1; discriminate Q1]. cbn in Q1. injection Q1 as Q1 Q3.
    inversion CC as [X1 X2|]; [|destruct l1; discriminate]. assert (EL : l = s_len s / 2 ^ j) by (pose proof (A13 eq_refl); lra).
    exists (1 * (m + 1))%nat, c, u, j, r, mm. split; [unfold qMain in *; cbv zeta in *; rewrite OFF; exact R|]. rewrite <- EL. split; [exact EO|]. subst. split; [exact A10|exact A11].
Qed.
Print Assumptions C118_first_point.
(** the spring of C114 whose assembly fails beyond u = 1: the first point is written for every length *)
Example C118_example (len : R) : 0 < len -> exists fuel c u (j : nat), qMain limited (exOpts 5) LoadControl false false None 1 fuel (exSt VS_R R len) = QNext c /\ q_out c = [(u, len / 2 ^ j)].
Proof.
  intros Hd. destruct (C118_first_point limited (exOpts 5) false None (fun u l => 2 * u - l : VS_R) 2 (1/2) 4 0 (exSt VS_R R len)) as (fuel & c & u & j & _ & _ & E & EO & _);
    [reflexivity|split; [discriminate|discriminate|discriminate|intros m l H; injection H as <-; discriminate]|split; [discriminate|]; split; [intros m l H; injection H as <-; discriminate|]; split; [cbn; lia|discriminate]
    |cbn; lia|cbn; lra|cbn; lra|cbn; lra|cbn; ring|lra|lra|lra|exact limited_regular|reflexivity|reflexivity..|exact Hd|reflexivity|].
  exists fuel, c, u, j. split; [exact E|exact EO].
Qed.
