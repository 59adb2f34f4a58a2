(** Properties of the bisection before a singular point and of what a search leaves behind: C99, C100. *)
From Verif Require Import VS Status RunTac ALMBase ALMBaseProofs ALMStep ALMLog ALMPoints ALMRun ALMVerbose Props_ALMStep Props_ALMStab ALMSingular Props_ALMSingular Props_ALMExtended.
Local Open Scope R_scope.

(** ** C99: the bisection *)
(** the numbers whose signs tell the stability at the displacement u: pivots or eigenvalues of the tangent there *)
Definition valuesAt {S : VS} {Mat} (p : problem S Mat) (o : opts) (u : S) (v : list R) : Prop :=
  exists m, p_jacobian p u v0 = Some m /\
    ((o_bif o = BifDeterminant /\ v = p_diag p m) \/ (o_bif o = BifEigenvalue /\ p_eig p m = Some v)).
(** there are n negative ones *)
Definition negativesAt {S : VS} {Mat} (p : problem S Mat) (o : opts) (u : S) (n : nat) : Prop :=
  exists v, valuesAt p o u v /\ n = length (filter (fun x => if Rlt_dec x 0 then true else false) v).
(** the smallest is x *)
Definition smallestAt {S : VS} {Mat} (p : problem S Mat) (o : opts) (u : S) (x : R) : Prop :=
  exists v, valuesAt p o u v /\ In x v /\ forall y, In y v -> x <= y.
Section Bisect.
Context {S : VS} {Mat : Type}.
Variable p : problem S Mat.
Variable o : opts.
Variable k : kind.
Implicit Types s t : st S Mat.
(** a step of length h from (u,l), without adaptation of the length *)
Definition trial t (u : S) (l h : R) t' : Prop :=
  s_U t = u /\ s_L t = l /\ s_len t = h /\ s_adaptive t = false /\ step p o k t = Ret tt t'.
(** [walk u0 l0 h fa a r u l]: after a accepted and r rejected trials the base point is (u,l). A trial is accepted if the
    step succeeds and the tangent at its end has fa negative values; the trial of length h / 2^r starts at the base point. *)
Inductive walk (u0 : S) (l0 h : R) (fa : nat) : nat -> nat -> S -> R -> Prop :=
| WStart : walk u0 l0 h fa 0 0 u0 l0
| WAccept a r u l t t' : walk u0 l0 h fa a r u l -> trial t u l (h / 2 ^ r) t' -> s_stat t' = Success -> negativesAt p o (s_U t') fa ->
    walk u0 l0 h fa (Datatypes.S a) r (s_U t') (s_L t')
| WReject a r u l t t' : walk u0 l0 h fa a r u l -> trial t u l (h / 2 ^ r) t' ->
    (s_stat t' <> Success \/ exists n, negativesAt p o (s_U t') n /\ n <> fa) -> walk u0 l0 h fa a (Datatypes.S r) u l.

Lemma count_same v : countNegatives v = length (filter (fun x => if Rlt_dec x 0 then true else false) v).
Proof. reflexivity. Qed.
Lemma minCoeff_some v x : minCoeff v = Some x -> In x v /\ forall y, In y v -> x <= y.
Proof.
  revert x. induction v as [|a v IH]; intros x H; [discriminate|]. cbn [minCoeff] in H. destruct (minCoeff v) as [y|] eqn:E; injection H as <-.
  - destruct (IH y eq_refl) as [I1 I2]. split.
    + unfold Rmin. destruct (Rle_dec a y); [left; reflexivity|right; exact I1].
    + intros z [<-|Hz]; [apply Rmin_l|]. eapply Rle_trans; [apply Rmin_r|auto].
  - split; [left; reflexivity|]. intros z [<-|Hz]; [lra|]. destruct v as [|b v]; [destruct Hz|]. cbn in E. destruct (minCoeff v); discriminate.
Qed.
Lemma stab_stat x (j : bool) s : s_stat (outSt (computeStability_ p o x j s)) = s_stat s.
Proof.
  unfold computeStability_, refreshJacobian, computeJacobianAt, stabilityVec, factorizeMatrix.
  apply (bind_proj s_stat).
  - destruct j; [|reflexivity]. apply (bind_proj s_stat); [destruct (p_jacobian p x v0); cbn [obind outSt]; [destruct (p_factor p m)|]; reflexivity|].
    intros m s1 _ E. cbv beta. rewrite <- E. repeat (match goal with |- context [match ?y with _ => _ end] => destruct y end; cbn [obind outSt]); reflexivity.
  - intros [] s1 _ E. rewrite <- E. apply (bind_proj s_stat);
    [|intros v s2 _ E2; rewrite <- E2]; repeat (match goal with |- context [match ?y with _ => _ end] => destruct y end; cbn [obind outSt]); reflexivity.
Qed.
(** the stability at x: the tangent of x is in m_jacMat *)
Lemma stability_at (j : bool) x s s' : (o_bif o = BifDeterminant \/ o_bif o = BifEigenvalue) ->
  (j = false -> exists m, p_jacobian p x v0 = Some m /\ s_jac s = Some m) ->
  computeStability_ p o x j s = Ret tt s' ->
  exists m v, p_jacobian p x v0 = Some m /\ s_jac s' = Some m /\
    ((o_bif o = BifDeterminant /\ v = p_diag p m) \/ (o_bif o = BifEigenvalue /\ p_eig p m = Some v)) /\
    s_negatives s' = countNegatives v /\ minCoeff v = Some (s_indicator s') /\ s_U s' = s_U s /\ s_L s' = s_L s /\ s_len s' = s_len s /\
    s_adaptive s' = s_adaptive s /\ s_stat s' = s_stat s.
Proof.
  intros B J H.
  pose proof (stab_stat x j s) as St. rewrite H in St. cbn [outSt] in St.
  pose proof (computeStability__keep p o x j s) as K. rewrite H in K. cbn [outSt] in K.
  unfold computeStability_ in H.
  match type of H with obind ?x _ = _ => destruct x as [[] s1|] eqn:E1; cbn [obind] in H; [|discriminate] end.
  assert (exists m, p_jacobian p x v0 = Some m /\ s_jac s1 = Some m) as (m & Hm & Jm).
  { destruct j; [destruct (refresh_ok p x v0 s s1 E1) as (m & A & A2 & _); eauto|]. apply (f_equal outSt) in E1. cbn [outSt] in E1. subst s1. auto. }
  match type of H with obind ?x _ = _ => destruct x as [v s2|] eqn:E2; cbn [obind] in H; [|discriminate] end. cbv zeta in H.
  destruct (minCoeff v) as [x0|] eqn:M; [|discriminate]. apply (f_equal outSt) in H. cbn [outSt] in H.
  assert (V : s_jac s2 = Some m /\ ((o_bif o = BifDeterminant /\ v = p_diag p m) \/ (o_bif o = BifEigenvalue /\ p_eig p m = Some v))).
  { unfold stabilityVec in E2. rewrite Jm in E2. destruct B as [B|B]; rewrite B in E2.
    - destruct (o_ldlt o); [|discriminate]. unfold factorizeMatrix in E2. destruct (p_factor p m); cbn [obind] in E2; [|discriminate].
      injection E2 as <- <-. split; [exact Jm|]. auto.
    - destruct (p_eig p m) eqn:Eg; [|discriminate]. injection E2 as <- <-. split; [exact Jm|]. auto. }
  destruct V as [V1 V2]. exists m, v. injection K. intros. subst s'. cbn in *. repeat split; try assumption.
Qed.

Lemma loop_walk u0 l0 h fa tol ref n : (o_bif o = BifDeterminant \/ o_bif o = BifEigenvalue) -> forall uold lold s b s' a r,
  walk u0 l0 h fa a r uold lold -> s_len s = h / 2 ^ r -> s_adaptive s = false -> (0 < n)%nat ->
  bisectionLoop p o k n tol ref uold lold fa s = Ret b s' ->
  exists a' r' u l t t', walk u0 l0 h fa a' r' u l /\ trial t u l (h / 2 ^ r') t' /\ s_U s' = s_U t' /\ s_L s' = s_L t' /\
    (a' + r' < a + r + n)%nat /\
    (if b then exists x, smallestAt p o (s_U s') x /\ ref <> 0 /\ Rabs (x / ref) < tol else (a' + r' + 1 = a + r + n)%nat).
Proof.
  intros B. induction n as [|n IH]; intros uold lold s b s' a r W Hl Ha Hn H; [lia|]. cbn [bisectionLoop] in H. cbv zeta in H.
  set (t := set_L lold (set_U uold s)) in *.
  destruct (step p o k t) as [[] t'|] eqn:Es; cbn [obind] in H; [|discriminate].
  destruct (C26_length_factor p o k t t' Es) as (A1 & A2 & _). change (s_adaptive t) with (s_adaptive s) in *. change (s_len t) with (s_len s) in *.
  specialize (A2 Ha).
  assert (T : trial t uold lold (h / 2 ^ r) t') by (repeat split; auto).
  unfold bisectionObjective in H. destruct (computeStability_ p o (s_U t') true t') as [[] s2|] eqn:E2; cbn [obind] in H; [|discriminate].
  destruct (stability_at true (s_U t') t' s2 B ltac:(discriminate) E2) as (m & v & Hm & Jm & Hv & N2 & M2 & U2 & L2 & Len2 & Ad2 & St2).
  assert (Neg : negativesAt p o (s_U t') (s_negatives s2)).
  { exists v. split; [exists m; auto|]. rewrite N2. apply count_same. }
  set (acc := Nat.eqb fa (s_negatives s2) && match s_stat t' with Success => true | _ => false end) in *.
  set (s3 := if acc then s2 else set_len (s_len s2 / 2) s2) in *.
  unfold bisectionTermination in H. destruct (computeStability_ p o (s_U s3) false s3) as [[] s4|] eqn:E4; cbn [obind] in H; [|discriminate].
  assert (U3 : s_U s3 = s_U t') by (unfold s3; destruct acc; cbn; assumption).
  assert (J3 : s_jac s3 = Some m) by (unfold s3; destruct acc; exact Jm).
  destruct (stability_at false (s_U s3) s3 s4 B ltac:(intros _; exists m; rewrite U3; auto) E4) as (m' & v' & Hm' & _ & Hv' & N4 & M4 & U4 & L4 & Len4 & Ad4 & St4).
  rewrite U3 in Hm', U4.
  assert (L3 : s_L s3 = s_L t') by (unfold s3; destruct acc; exact L2).
  assert (Sm : smallestAt p o (s_U t') (s_indicator s4)) by (exists v'; split; [exists m'; auto|]; apply minCoeff_some, M4).
  (** the walk goes on *)
  assert (W' : exists a1 r1, walk u0 l0 h fa a1 r1 (if acc then s_U s3 else uold) (if acc then s_L s3 else lold) /\ (a1 + r1 = a + r + 1)%nat /\ s_len s4 = h / 2 ^ r1).
  { destruct acc eqn:Ac.
    - unfold acc in Ac. apply andb_true_iff in Ac as [Ac1 Ac2]. apply Nat.eqb_eq in Ac1. exists (Datatypes.S a), r. rewrite U3, L3. split.
      + eapply WAccept; [exact W|exact T| |rewrite Ac1; exact Neg]. destruct (s_stat t'); congruence.
      + split; [lia|]. rewrite Len4. unfold s3. congruence.
    - exists a, (Datatypes.S r). split.
      + eapply WReject; [exact W|exact T|]. unfold acc in Ac. apply andb_false_iff in Ac as [Ac|Ac].
        * right. exists (s_negatives s2). split; [exact Neg|]. apply Nat.eqb_neq in Ac. auto.
        * left. intros E. rewrite E in Ac. discriminate.
      + split; [lia|]. rewrite Len4. unfold s3. cbn. rewrite Len2, A2, Hl. field. apply pow_nonzero. lra. }
  destruct W' as (a1 & r1 & W' & Hr & L1).
  destruct (oltb (option_map Rabs (rdiv (s_indicator s4) ref)) tol) eqn:Ot.
  - injection H as <- <-. exists a, r, uold, lold, t, t'. split; [exact W|]. split; [exact T|]. split; [exact U4|]. split; [congruence|]. split; [lia|].
    exists (s_indicator s4). rewrite U4. split; [exact Sm|]. unfold rdiv in Ot. destruct (Reqb ref 0) eqn:R0; [discriminate|]. apply Reqb_false in R0.
    split; [exact R0|]. cbn [option_map oltb] in Ot. apply Rltb_true in Ot. exact Ot.
  - destruct n as [|n].
    + cbn [bisectionLoop] in H. injection H as <- <-. exists a, r, uold, lold, t, t'. split; [exact W|]. split; [exact T|]. split; [exact U4|]. split; [congruence|]. lia.
    + assert (Ad : s_adaptive s4 = false) by (rewrite Ad4; unfold s3; destruct acc; cbn; congruence).
      destruct (IH _ _ _ _ _ a1 r1 W' L1 Ad ltac:(lia) H) as (a' & r' & u & l & tt1 & tt2 & Q1 & Q2 & Q3 & Q4 & Q5 & Q6).
      exists a', r', u, l, tt1, tt2. repeat (split; [assumption|]). split; [lia|]. destruct b; [exact Q6|lia].
Qed.
Lemma modeLoop_point n : forall v c s, (s_U (outSt (modeLoop p o n v c s)), s_L (outSt (modeLoop p o n v c s))) = (s_U s, s_L s).
Proof.
  induction n as [|n IH]; intros v c s; cbn [modeLoop]; [reflexivity|].
  apply (bind_proj (fun s => (s_U s, s_L s))); [pose proof (refactorize_L p s) as K; injection K; intros; congruence|]. intros [] s1 _ K1.
  cbv beta in *. rewrite <- K1. apply (bind_proj (fun s => (s_U s, s_L s))); [pose proof (solveSystem_keep p (s_Vm s1) s1) as K; injection K; intros; congruence|].
  intros x s2 _ K2. cbv beta zeta in *. rewrite <- K2. destruct (Rltb _ _); [reflexivity|]. rewrite IH. reflexivity.
Qed.
End Bisect.

(** The point the bisection hands over is the end of a trial step whose start was reached from the given point by accepted
    trials only: steps that succeeded and ended where the tangent has as many negative values as at the given point. The
    length is halved once per rejected trial, there are at most MaxIter - 1 trials, and fewer only if the smallest value at
    the end of the last, divided by the one at the given point, is below the tolerance in size. *)
Theorem C99_bisection {S : VS} {Mat} (p : problem S Mat) o k u l tol s b s' :
  (o_bif o = BifDeterminant \/ o_bif o = BifEigenvalue) -> (2 <= o_maxIt o)%nat ->
  bisectionSolve p o k u l tol s = Ret b s' ->
  exists fa ref, negativesAt p o u fa /\ smallestAt p o u ref /\
  exists a r u1 l1 t t', walk p o k u l (s_len s) fa a r u1 l1 /\ trial p o k t u1 l1 (s_len s / 2 ^ r) t' /\
    s_U s' = s_U t' /\ s_L s' = s_L t' /\ (a + r + 1 <= o_maxIt o - 1)%nat /\
    ((a + r + 1 = o_maxIt o - 1)%nat \/ exists x, smallestAt p o (s_U s') x /\ ref <> 0 /\ Rabs (x / ref) < tol).
Proof.
  intros B Hm H. unfold bisectionSolve in H. cbv zeta in H.
  set (s0 := set_adaptive false (set_L l (set_U u s))) in *. change (s_len (set_L l (set_U u s))) with (s_len s) in H.
  unfold bisectionTermination in H. destruct (computeStability_ p o (s_U s0) true s0) as [[] s1|] eqn:E1; cbn [obind] in H; [|discriminate].
  destruct (stability_at p o true (s_U s0) s0 s1 B ltac:(discriminate) E1) as (m & v & Hm1 & Jm & Hv & N1 & M1 & U1 & L1 & Len1 & Ad1 & _).
  unfold bisectionObjective in H. destruct (computeStability_ p o (s_U s1) false s1) as [[] s2|] eqn:E2; cbn [obind] in H; [|discriminate].
  destruct (stability_at p o false (s_U s1) s1 s2 B ltac:(intros _; exists m; rewrite U1; auto) E2) as (m2 & v2 & Hm2 & _ & Hv2 & N2 & M2 & U2 & L2 & Len2 & Ad2 & _).
  rewrite U1 in Hm2. change (s_U s0) with u in *. change (s_L s0) with l in *. change (s_len s0) with (s_len s) in *. change (s_adaptive s0) with false in *.
  rewrite U2, L2, U1, L1 in H.
  destruct (bisectionLoop p o k (o_maxIt o - 1) tol (s_indicator s1) u l (s_negatives s2) s2) as [c s3|] eqn:E3; cbn [obind] in H; [|discriminate].
  match type of H with modeLoop _ _ _ _ _ ?x = _ => pose proof (modeLoop_point p o 5 v0 c x) as Mp end. rewrite H in Mp. cbn [outSt] in Mp.
  assert (Mp' : (s_U s', s_L s') = (s_U s3, s_L s3)) by exact Mp. injection Mp' as MU ML. clear Mp H.
  exists (s_negatives s2), (s_indicator s1).
  split; [exists v2; split; [exists m2; auto|]; rewrite N2; apply count_same|]. split; [exists v; split; [exists m; auto|]; apply minCoeff_some, M1|].
  destruct (loop_walk p o k u l (s_len s) (s_negatives s2) tol (s_indicator s1) (o_maxIt o - 1) B u l s2 c s3 0 0
    (WStart p o k u l (s_len s) (s_negatives s2)) ltac:(rewrite Len2, Len1; cbn; field) ltac:(congruence) ltac:(lia) E3)
    as (a & r & u1 & l1 & t & t' & Q1 & Q2 & Q3 & Q4 & Q5 & Q6).
  exists a, r, u1, l1, t, t'. split; [exact Q1|]. split; [exact Q2|]. split; [congruence|]. split; [congruence|]. split; [lia|].
  destruct c; [right; rewrite MU; exact Q6|left; lia].
Qed.
Print Assumptions C99_bisection.

(** a spring with a limit point at the displacement 1: stiffness 1 below 9/10, then 10 (1 - u), -1/200 from 1 on, -1 from 21/20 on *)
Definition exFold : problem VS_R R := @mkProblem VS_R R
  (fun u l => if Rltb u (9/10) then Some (u - l) else if Rltb u 1 then Some (19/20 - 5 * (1 - u) * (1 - u) - l)
    else if Rltb u (21/20) then Some (19/20 - (u - 1) / 200 - l) else Some (7999/4000 - u - l))
  (fun u _ => if Rltb u (9/10) then Some 1 else if Rltb u 1 then Some (10 * (1 - u)) else if Rltb u (21/20) then Some (-1/200) else Some (-1))
  (fun m => negb (Reqb m 0)) (fun m f => if Reqb m 0 then None else Some (f / m)) (fun m x => m * x) (fun m => [m]) (fun m => Some [m]) 1 1 1.
Definition foldOpts (tolB : R) : opts := {|
  o_maxIt := 3; o_tol := 1/100; o_tolF := 1/2; o_tolU := 3/4; o_tau := 1; o_quasi := false; o_quasiInterval := (-1)%Z;
  o_bif := BifDeterminant; o_ldlt := true; o_verbose := false; o_relax := 1; o_spFail := true; o_spTestTol := 2;
  o_spTestIt := 1; o_spTolE := 1/100; o_spTolB := tolB; o_phiUser := true; o_angle := AngStep |}.
(** The consistent Crisfield method back at (4/5,4/5), stable, where a step from (1/2,1/2) ended, after a further step has found an unstable point *)
Definition foldSt : st VS_R R := set_phi (1/2) (set_stab 1 (set_Uprev (1/2 : VS_R) (set_Lprev (1/2) (setSolution (4/5 : VS_R) (4/5) (exSt VS_R R (3/10)))))).
(** one trial rejected, one accepted *)
Example C99_example : exists b s, bisectionSolve exFold (foldOpts (3/4)) ConsistentCrisfield (4/5 : VS_R) (4/5) (3/4) foldSt = Ret b s /\
  4/5 < s_U s < 1 /\ s_stab s = (-1)%Z /\ s_stabPrev s = 1%Z.
Proof. eexists. eexists. split; [ev|]. rcbv. split; [lra|]. split; reflexivity. Qed.

(** ** C100: the stability recorded after a search *)
(** After a completed search (the point is a bifurcation, or is not tested) stabilityChange() is false; without bisection
    the recorded sign is the one from before the step that called for the search. *)
Theorem C100_recorded_partial {S : VS} {Mat} (p : problem S Mat) o k u l switch jacobian (testPoint : bool) s s' :
  computeSingularPoint_ p o k u l switch jacobian testPoint s = Ret tt s' ->
  testPoint = false \/ (exists t, testSingularPoint p o jacobian s = Ret true t) ->
  stabilityChange s' = false /\ (o_spTolB o = 0 -> s_stab s' = s_stabPrev s).
Proof.
  intros H Ht. unfold computeSingularPoint_ in H.
  assert (E1 : exists s1, (if testPoint then testSingularPoint p o jacobian s else Ret true s) = Ret true s1 /\ s_stabPrev s1 = s_stabPrev s).
  { destruct testPoint; [|eauto]. destruct Ht as [Ht|(t & Ht)]; [discriminate|]. exists t. split; [exact Ht|].
    pose proof (test_L p o jacobian s) as K. rewrite Ht in K. cbn [outSt] in K. injection K. auto. }
  destruct E1 as (s1 & E1 & K1). rewrite E1 in H. cbn [obind] in H. cbv zeta in H. revert H.
  change (s_stabPrev s1) with (s_stabPrev (set_L l (set_U u s1))) in K1. revert K1. generalize (set_L l (set_U u s1)). clear. intros s1 K1 H.
  match type of H with obind ?x _ = _ => destruct x as [[] s2|] eqn:E2; cbn [obind] in H; [|discriminate] end.
  assert (K2 : o_spTolB o = 0 -> s_stabPrev s2 = s_stabPrev s).
  { intros Z. rewrite Z in E2. rewrite (proj2 (Reqb_true 0 0) eq_refl) in E2. apply (f_equal outSt) in E2. cbn in E2. congruence. }
  pose proof (extSolve_L p o (s_U s2) (s_L s2) (o_spTolE o) s2) as X.
  destruct (extendedSystemSolve p o (s_U s2) (s_L s2) (o_spTolE o) s2) as [c s3|e s3]; cbn [obind outSt] in *; [|discriminate].
  match type of H with obind ?x _ = _ => assert (Y : keepL (outSt x) = keepL s3) by
    (destruct (_ && _); [apply switch_L|reflexivity]); destruct x as [[] s4|e s4] end; cbn [obind outSt] in *; [|discriminate].
  injection X. injection Y. intros. apply (f_equal outSt) in H. cbn [outSt] in H. subst s'. split.
  - unfold stabilityChange. cbn. apply Z.ltb_ge. nia.
  - intros Z. specialize (K2 Z). cbn. congruence.
Qed.
Print Assumptions C100_recorded_partial.
(** So the next step reports a change exactly when it ends at a point of other stability than the point before. *)
Theorem C100_next_step_partial {S : VS} {Mat} (p : problem S Mat) o k u l switch jacobian (testPoint : bool) s s1 s2 :
  o_spTolB o = 0 -> o_bif o = BifDeterminant -> o_ldlt o = true -> (forall m, p_diag p m <> []) -> o_verbose o = false -> (2 <= o_maxIt o)%nat ->
  s_stabPrev s = 1%Z \/ s_stabPrev s = (-1)%Z ->
  computeSingularPoint_ p o k u l switch jacobian testPoint s = Ret tt s1 ->
  testPoint = false \/ (exists t, testSingularPoint p o jacobian s = Ret true t) ->
  step p o k s1 = Ret tt s2 -> s_stat s2 = Success -> (stabilityChange s2 = true <-> stability s2 <> s_stabPrev s).
Proof.
  intros Tb B L D V M Hs H Ht E ES. destruct (C100_recorded_partial p o k u l switch jacobian testPoint s s1 H Ht) as [_ R]. specialize (R Tb).
  rewrite <- R in *. destruct (C34_change_partial p o k s1 s2 B L D V M Hs E ES) as (m & _ & _ & _ & C). exact C.
Qed.
Print Assumptions C100_next_step_partial.
