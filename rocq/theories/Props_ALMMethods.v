(** Properties of the iterations of the arc-length methods: C27-C31. *)
From Verif Require Import VS Status RunTac ALMBase ALMBaseProofs ALMStep ALMLog ALMPoints ALMRun Props_ALMStep.
Local Open Scope R_scope.

(** the squared length of an increment in the metric of the spherical constraint:
    |DU|^2 + phi^2 |F|^2 DL^2 *)
Definition arcSq {S : VS} {Mat} (p : problem S Mat) (phi : R) (du : S) (dl : R) : R :=
  dot du du + phi * phi * dot (p_F p) (p_F p) * (dl * dl).
(** the inner product of that metric *)
Definition arcDot {S : VS} {Mat} (p : problem S Mat) (phi : R) (du : S) (dl : R) (dv : S) (dm : R) : R :=
  dot du dv + phi * phi * dot (p_F p) (p_F p) * (dl * dm).

Section Crisfield.
Context {S : VS} {Mat : Type}.
Variable p : problem S Mat.
Variable o : opts.
Implicit Types s : st S Mat.

(** an iteration of Crisfield's method, without relaxation *)
Lemma crisfield_iteration s s' : o_relax o = 1 -> iteration p o Crisfield s = Ret tt s' ->
  exists sa eta sb, computeUbar p s = Ret tt sa /\ computeLambdas p sa = Ret eta sb /\
    keep4 sa = keep4 s /\ s_dUt sa = s_dUt s /\ s_dUbar s' = s_dUbar sa /\ s_dUt s' = s_dUt sa /\
    s_dU s' = s_dU sb /\ s_dL s' = s_dL sb /\ s_DU s' = s_DU s +v s_dU sb /\ s_DL s' = s_DL s + s_dL sb /\
    s_phi s' = s_phi s /\ s_len s' = s_len s /\ s_jac sa = s_jac s.
Proof.
  intros Hr. unfold iteration. intros H. destruct (computeUbar p s) as [[] sa|] eqn:E1; [|discriminate]. cbn [obind] in H.
  cbv zeta in H. destruct (computeLambdas p sa) as [eta sb|] eqn:E2; [|discriminate]. cbn [obind] in H.
  exists sa, eta, sb. pose proof (keepOk (S:=S) (Mat:=Mat) keep4 _ s _ _ (computeUbar_keep p s) E1) as K1.
  assert (T : s_dUt sa = s_dUt s /\ s_jac sa = s_jac s).
  { unfold computeUbar, solveSystem in E1. destruct (s_fact s); [|discriminate]. cbv zeta in E1. destruct (p_solve p _ _); [|discriminate].
    injection E1 as <-. auto. }
  destruct T as [T1 T2].
  assert (K2 : s_DU sb = s_DU sa /\ s_DL sb = s_DL sa /\ s_dUbar sb = s_dUbar sa /\ s_dUt sb = s_dUt sa /\ s_phi sb = s_phi sa /\ s_len sb = s_len sa).
  { clear - E2. unfold computeLambdas in E2. cbv zeta in E2. destruct (Reqb _ 0); [discriminate|].
    assert (D : forall e l1 l2 (x : st S Mat), let y := computeLambdaDOT e l1 l2 x in
      s_DU y = s_DU x /\ s_DL y = s_DL x /\ s_dUbar y = s_dUbar x /\ s_dUt y = s_dUt x /\ s_phi y = s_phi x /\ s_len y = s_len x).
    { intros. unfold y, computeLambdaDOT. cbv zeta. destruct (Rltb _ _); [cbn; auto 10|]. destruct (Rltb _ _); cbn; auto 10. }
    destruct (Rleb 0 _); [injection E2 as _ <-; apply D|]. destruct (etaModified _) as [[D2 et]|]; [|discriminate].
    destruct (_ && _); [injection E2 as _ <-; apply D|].
    unfold computeLambdasComplex in E2. destruct (s_jac sa); [|discriminate]. cbv zeta in E2.
    destruct (rdiv _ _); [|discriminate]. destruct (rdiv _ _); [|discriminate]. cbn in E2. injection E2 as _ <-. cbn. auto 10. }
  destruct K2 as (k1 & k2 & k3 & k4 & k5 & k6). injection K1. intros. rewrite Hr in H.
  replace (Reqb 1 1) with true in H by (symmetry; apply Reqb_true; reflexivity). cbn [negb] in H. rewrite andb_false_r in H.
  destruct (o_angle o); injection H as <-; cbn; repeat (split; [congruence|]); congruence.
Qed.

(** the equation for the load increment is the constraint *)
Lemma coeffs_arc s eta x :
  arcSq p (s_phi s) (s_DU s +v (eta *v s_dUbar s +v x *v s_dUt s)) (s_DL s + x) - s_len s * s_len s =
  c_a0 (lambdaCoeffs p s) * x * x + alpha2 (lambdaCoeffs p s) eta * x + alpha3 (lambdaCoeffs p s) eta.
Proof.
  unfold arcSq, alpha2, alpha3, lambdaCoeffs, A0. cbn [c_a0 c_b0 c_b1 c_c0 c_c1 c_c2]. autorewrite with dot.
  rewrite (dot_sym S (s_dUbar s) (s_DU s)), (dot_sym S (s_dUt s) (s_DU s)), (dot_sym S (s_dUt s) (s_dUbar s)). ring.
Qed.
Lemma quadratic_root a b c x : a <> 0 -> 0 <= b * b - 4 * a * c ->
  x = (- b + sqrt (b * b - 4 * a * c)) / (2 * a) \/ x = (- b - sqrt (b * b - 4 * a * c)) / (2 * a) ->
  a * x * x + b * x + c = 0.
Proof.
  intros Ha HD H. pose proof (sqrt_sqrt _ HD) as HS. set (q := sqrt _) in *.
  assert (E : a * x * x + b * x + c = (q * q - (b * b - 4 * a * c)) / (4 * a)) by (destruct H as [-> | ->]; field; exact Ha).
  rewrite E, HS. field. exact Ha.
Qed.
Lemma root_discriminant a b c x : a * x * x + b * x + c = 0 -> 0 <= b * b - 4 * a * c.
Proof. intros H. replace (b * b - 4 * a * c) with ((2 * a * x + b) * (2 * a * x + b) - 4 * a * (a * x * x + b * x + c)) by ring. rewrite H. pose proof (Rle_0_sqr (2 * a * x + b)) as Q. unfold Rsqr in Q. lra. Qed.
Lemma root_cases a b c x : a <> 0 -> a * x * x + b * x + c = 0 ->
  x = (- b + sqrt (b * b - 4 * a * c)) / (2 * a) \/ x = (- b - sqrt (b * b - 4 * a * c)) / (2 * a).
Proof.
  intros Ha H. pose proof (root_discriminant _ _ _ _ H) as HD. pose proof (sqrt_sqrt _ HD) as HS. set (q := sqrt _) in *.
  assert (E : (2 * a * x + b - q) * (2 * a * x + b + q) = 0).
  { replace ((2 * a * x + b - q) * (2 * a * x + b + q)) with ((2 * a * x + b) * (2 * a * x + b) - q * q) by ring.
    rewrite HS. replace ((2 * a * x + b) * (2 * a * x + b) - (b * b - 4 * a * c)) with (4 * a * (a * x * x + b * x + c)) by ring.
    rewrite H. ring. }
  apply Rmult_integral in E. destruct E as [E|E]; [left|right].
  - apply (Rmult_eq_reg_l (2 * a)); [|lra]. replace (2 * a * ((- b + q) / (2 * a))) with (- b + q) by (field; exact Ha). lra.
  - apply (Rmult_eq_reg_l (2 * a)); [|lra]. replace (2 * a * ((- b - q) / (2 * a))) with (- b - q) by (field; exact Ha). lra.
Qed.
Lemma DOT_cases e l1 l2 s : let y := computeLambdaDOT e l1 l2 s in
  exists l, (l = l1 \/ l = l2) /\ s_dL y = l /\ s_dU y = e *v s_dUbar s +v l *v s_dUt s /\
    let g := dot (s_DUold s) (s_dUt s) + s_phi s * s_phi s * s_DLold s in l1 * g <= l * g /\ l2 * g <= l * g.
Proof.
  unfold computeLambdaDOT. cbv zeta. destruct (Rltb _ _) eqn:E1.
  - apply Rltb_true in E1. exists l1. repeat split; auto; lra.
  - apply Rltb_false in E1. destruct (Rltb _ _) eqn:E2.
    + apply Rltb_true in E2. exists l2. repeat split; auto; lra.
    + apply Rltb_false in E2. exists l1. repeat split; auto; lra.
Qed.
(** [computeLambdas] when the constraint can be met: the load increment is a root, namely the
    one that the comparison prefers *)
Lemma lambdas_real s eta s' : computeLambdas p s = Ret eta s' ->
  (exists x, arcSq p (s_phi s) (s_DU s +v s_dUbar s +v x *v s_dUt s) (s_DL s + x) = s_len s * s_len s) ->
  s_dU s' = s_dUbar s +v s_dL s' *v s_dUt s /\
  arcSq p (s_phi s) (s_DU s +v s_dU s') (s_DL s + s_dL s') = s_len s * s_len s /\
  forall x, arcSq p (s_phi s) (s_DU s +v s_dUbar s +v x *v s_dUt s) (s_DL s + x) = s_len s * s_len s ->
    x * (dot (s_DUold s) (s_dUt s) + s_phi s * s_phi s * s_DLold s) <= s_dL s' * (dot (s_DUold s) (s_dUt s) + s_phi s * s_phi s * s_DLold s).
Proof.
  intros H (x & Hx). unfold computeLambdas in H. cbv zeta in H. destruct (Reqb _ 0) eqn:Ea; [discriminate|]. apply Reqb_false in Ea.
  set (c := lambdaCoeffs p s) in *.
  assert (EQ : forall x, arcSq p (s_phi s) (s_DU s +v s_dUbar s +v x *v s_dUt s) (s_DL s + x) - s_len s * s_len s =
     c_a0 c * x * x + alpha2 c 1 * x + alpha3 c 1).
  { intros y. unfold c. rewrite <- coeffs_arc. f_equal. unfold arcSq. f_equal. 
    replace (s_DU s +v (1 *v s_dUbar s +v y *v s_dUt s)) with (s_DU s +v s_dUbar s +v y *v s_dUt s) by vring. reflexivity. }
  assert (Hx' : c_a0 c * x * x + alpha2 c 1 * x + alpha3 c 1 = 0) by (rewrite <- EQ; lra).
  pose proof (root_discriminant _ _ _ _ Hx') as HD. unfold discriminant in H.
  destruct (Rleb 0 _) eqn:ED; [|apply Rleb_false in ED; lra]. injection H as _ <-.
  match goal with |- context [computeLambdaDOT 1 ?l1 ?l2 s] => destruct (DOT_cases 1 l1 l2 s) as (l & Hl & L1 & L2 & L3) end.
  cbv zeta in L1, L2, L3. rewrite L1, L2. split; [vring|].
  pose proof (quadratic_root _ _ _ l Ea HD Hl) as Q. rewrite <- EQ in Q. split.
  - replace (s_DU s +v (1 *v s_dUbar s +v l *v s_dUt s)) with (s_DU s +v s_dUbar s +v l *v s_dUt s) by vring. lra.
  - intros y Hy. assert (Hy' : c_a0 c * y * y + alpha2 c 1 * y + alpha3 c 1 = 0) by (rewrite <- EQ; lra).
    destruct (root_cases _ _ _ y Ea Hy') as [-> | ->]; apply L3.
Qed.
End Crisfield.

(** ** C27: every Crisfield iterate lies on the constraint *)
(** The iteration solves for [s_dUbar s'] (answer to the residual) and uses the answer
    [s_dUt s'] to the load; the quadratic equation has a real root when some load increment
    [x] meets the constraint. *)
Theorem C27_iterate_on_constraint {S : VS} {Mat} (p : problem S Mat) o s s' :
  o_relax o = 1 -> iteration p o Crisfield s = Ret tt s' ->
  (exists x, arcSq p (s_phi s) (s_DU s +v s_dUbar s' +v x *v s_dUt s') (s_DL s + x) = s_len s * s_len s) ->
  arcSq p (s_phi s') (s_DU s') (s_DL s') = s_len s' * s_len s' /\ s_len s' = s_len s /\ s_phi s' = s_phi s.
Proof.
  intros Hr H (x & Hx). destruct (crisfield_iteration p o s s' Hr H) as (sa & eta & sb & E1 & E2 & K & T & U1 & U2 & U3 & U4 & U5 & U6 & U7 & U8 & _).
  injection K. intros. rewrite U7, U8, U5, U6. split; [|auto].
  replace (s_phi s) with (s_phi sa) by congruence. replace (s_DU s) with (s_DU sa) by congruence.
  replace (s_DL s) with (s_DL sa) by congruence. replace (s_len s) with (s_len sa) by congruence.
  apply (lambdas_real p sa eta sb E2). exists x. rewrite <- U1, <- U2.
  replace (s_phi sa) with (s_phi s) by congruence. replace (s_DU sa) with (s_DU s) by congruence.
  replace (s_DL sa) with (s_DL s) by congruence. replace (s_len sa) with (s_len s) by congruence. exact Hx.
Qed.
Print Assumptions C27_iterate_on_constraint.
(** A real root exists in particular when the residual correction alone stays inside the
    constraint and the metric is positive. *)
Theorem C27_real_root {S : VS} {Mat} (p : problem S Mat) phi (du ubar ut : S) dl len :
  0 < arcSq p phi ut 1 -> arcSq p phi (du +v ubar) dl <= len * len ->
  exists x, arcSq p phi (du +v ubar +v x *v ut) (dl + x) = len * len.
Proof.
  intros Ha Hc. set (a := arcSq p phi ut 1) in *. set (b := 2 * arcDot p phi (du +v ubar) dl ut 1).
  set (c := arcSq p phi (du +v ubar) dl - len * len).
  assert (HD : 0 <= b * b - 4 * a * c) by (subst c; nra).
  exists ((- b + sqrt (b * b - 4 * a * c)) / (2 * a)). set (x := (- b + _) / _).
  pose proof (quadratic_root a b c x ltac:(lra) HD (or_introl eq_refl)) as Q.
  assert (E : arcSq p phi (du +v ubar +v x *v ut) (dl + x) - len * len = a * x * x + b * x + c); [|lra].
  unfold a, b, c, arcSq, arcDot. autorewrite with dot.
  rewrite (dot_sym S ut du), (dot_sym S ut ubar). ring.
Qed.
Print Assumptions C27_real_root.
(** A converged step: its increment is that of its last iteration, from [sI] to [sJ]. When
    this one had real roots, distance() between the old and the new point is the arc length. *)
Theorem C27_step_distance {S : VS} {Mat} (p : problem S Mat) o s s' :
  o_relax o = 1 -> (2 <= o_maxIt o)%nat -> 0 <= s_len s ->
  step p o Crisfield s = Ret tt s' -> s_stat s' = Success ->
  exists sI sJ, iteration p o Crisfield sI = Ret tt sJ /\ s_U sI = s_U s /\ s_L sI = s_L s /\ s_len sI = s_len s /\
    s_DU sJ = s_U s' -v s_U s /\ s_DL sJ = s_L s' - s_L s /\ s_phi s' = s_phi sI /\
    ((exists x, arcSq p (s_phi sI) (s_DU sI +v s_dUbar sJ +v x *v s_dUt sJ) (s_DL sI + x) = s_len s * s_len s) ->
     distance p Crisfield (s_U s' -v s_U s) (s_L s' - s_L s) s' = Some (s_len s)).
Proof.
  intros Hr Hm Hl H Hs.
  destruct (step_outcome _ _ _ _ _ H) as [(A & _)|[(_ & A & _)|(_ & _ & sP & sI & sJ & s1 & s7 & C & ->)]]; [contradiction|lia|].
  destruct C as [_ C1 (C2 & C2' & _) C3 _ _ _ _ F]. exists sI, sJ.
  pose proof (keepOk (S:=S) (Mat:=Mat) keep3 _ sI _ _ (iteration_keep p o Crisfield sI) C1) as K.
  destruct (finished_UL o Crisfield s1 s7 F) as (F1 & F2 & _ & _ & _ & _ & F3 & _).
  injection C2. injection K. injection C3. intros. cbn [s_U s_L s_phi set_stat].
  split; [exact C1|]. do 3 (split; [congruence|]).
  assert (E1 : s_DU sJ = s_U s7 -v s_U s).
  { rewrite F1. replace (s_U s1) with (s_U s) by congruence. replace (s_DU s1) with (s_DU sJ) by congruence. vring. }
  assert (E2 : s_DL sJ = s_L s7 - s_L s).
  { rewrite F2. replace (s_L s1) with (s_L s) by congruence. replace (s_DL s1) with (s_DL sJ) by congruence. ring. }
  split; [exact E1|]. split; [exact E2|]. split; [congruence|]. intros (x & Hx).
  destruct (C27_iterate_on_constraint p o sI sJ Hr C1) as (Q & Q2 & Q3).
  { exists x. replace (s_len sI) with (s_len s) by congruence. exact Hx. }
  unfold distance. cbn [s_phi set_stat]. rewrite <- E1, <- E2. unfold arcSq in Q. unfold A0. cbn [s_phi set_stat].
  replace (s_phi s7) with (s_phi sJ) by congruence. rewrite Q. f_equal.
  replace (s_len sJ) with (s_len s) by congruence. apply sqrt_square. exact Hl.
Qed.
Print Assumptions C27_step_distance.
(** the constraint has real roots and the step has the length 5 *)
Example C27_example : exists s, step exSpring (exOpts 5) Crisfield (set_phi (3/8) (setSolutionStep (1 : VS_R) 1 (exSt VS_R R 5))) = Ret tt s /\
  s_stat s = Success /\ s_U s = 4 /\ s_L s = 8 /\ arcSq exSpring (3/8) (4 : VS_R) 8 = 5 * 5.
Proof. eexists. split; [ev|]. rcbv. unfold arcSq. cbn. repeat split; lra. Qed.

(** ** C28: complex roots *)
(** When no part [eta] of the residual correction can meet the constraint, the fallback does. *)
Theorem C28_complex_on_constraint_partial {S : VS} {Mat} (p : problem S Mat) o s s' :
  o_relax o = 1 -> iteration p o Crisfield s = Ret tt s' ->
  (forall eta x, arcSq p (s_phi s) (s_DU s +v eta *v s_dUbar s' +v x *v s_dUt s') (s_DL s + x) <> s_len s * s_len s) ->
  arcSq p (s_phi s') (s_DU s') (s_DL s') = s_len s' * s_len s'.
Proof.
  intros Hr H Hx. destruct (crisfield_iteration p o s s' Hr H) as (sa & eta & sb & E1 & E2 & K & T & U1 & U2 & U3 & U4 & U5 & U6 & U7 & U8 & _).
  injection K. intros. rewrite U7, U8, U5, U6.
  replace (s_phi s) with (s_phi sa) in * by congruence. replace (s_DU s) with (s_DU sa) in * by congruence.
  replace (s_DL s) with (s_DL sa) in * by congruence. replace (s_len s) with (s_len sa) in * by congruence.
  rewrite U1, U2 in Hx. clear - E2 Hx. unfold computeLambdas in E2. cbv zeta in E2.
  destruct (Reqb _ 0) eqn:Ea; [discriminate|]. apply Reqb_false in Ea. set (c := lambdaCoeffs p sa) in *.
  assert (EQ : forall eta x, c_a0 c * x * x + alpha2 c eta * x + alpha3 c eta <> 0).
  { intros e x Q. unfold c in Q. rewrite <- coeffs_arc in Q. apply (Hx e x).
    replace (s_DU sa +v e *v s_dUbar sa +v x *v s_dUt sa) with (s_DU sa +v (e *v s_dUbar sa +v x *v s_dUt sa)) by vring. lra. }
  assert (EN : forall eta, discriminant c eta < 0).
  { intros e. destruct (Rlt_le_dec (discriminant c e) 0) as [L|L]; [exact L|]. exfalso.
    apply (EQ e ((- alpha2 c e + sqrt (alpha2 c e * alpha2 c e - 4 * c_a0 c * alpha3 c e)) / (2 * c_a0 c))).
    apply quadratic_root; auto. }
  destruct (Rleb 0 _) eqn:E0; [apply Rleb_true in E0; specialize (EN 1); lra|].
  destruct (etaModified c) as [[D2 et]|] eqn:Em; [|discriminate].
  assert (Hd : D2 < 0).
  { unfold etaModified in Em. cbv zeta in Em. set (a1 := c_b1 c * c_b1 c - 4 * c_a0 c * c_c2 c) in *.
    set (a2 := 2 * c_b0 c * c_b1 c - 4 * c_a0 c * c_c1 c) in *. set (a3 := c_b0 c * c_b0 c - 4 * c_a0 c * c_c0 c) in *.
    destruct (Rltb _ 0) eqn:Ed; [injection Em as <- _; apply Rltb_true in Ed; exact Ed|].
    apply Rltb_false in Ed. destruct (Reqb a1 0) eqn:E1; [discriminate|]. apply Reqb_false in E1. exfalso.
    specialize (EN ((- a2 + sqrt (a2 * a2 - 4 * a1 * a3)) / (2 * a1))).
    pose proof (quadratic_root a1 a2 a3 _ E1 Ed (or_introl eq_refl)) as Q. set (e := (- a2 + _) / _) in *.
    assert (discriminant c e = a1 * e * e + a2 * e + a3); [|lra]. unfold discriminant, alpha2, alpha3, a1, a2, a3. ring. }
  replace (Rleb 0 D2) with false in E2 by (symmetry; apply Rleb_false; exact Hd). cbn [andb] in E2.
  unfold computeLambdasComplex in E2. destruct (s_jac sa) as [m|]; [|discriminate]. cbv zeta in E2.
  destruct (rdiv (dot _ _) _) as [Lcr|]; [|discriminate]. unfold rdiv in E2. destruct (Reqb (sqrt _) 0) eqn:Er; [discriminate|].
  apply Reqb_false in Er. cbn in E2. injection E2 as _ <-. cbn [s_dU s_dL set_dU set_dL].
  set (DUcr := s_DU sa +v s_dUbar sa) in *. set (DLcr := Lcr - s_L sa) in *. unfold A0 in *.
  set (q := dot DUcr DUcr + _) in *. set (mu := s_len sa / sqrt q).
  replace (s_DU sa +v (mu *v DUcr -v s_DU sa)) with (mu *v DUcr) by vring. replace (s_DL sa + (mu * DLcr - s_DL sa)) with (mu * DLcr) by ring.
  assert (0 <= q).
  { unfold q. apply Rplus_le_le_0_compat; [apply dot_pos|]. apply Rmult_le_pos; [|nra]. apply Rmult_le_pos; [nra|apply dot_pos]. }
  unfold arcSq. autorewrite with dot. transitivity (mu * mu * q); [unfold q; ring|].
  unfold mu. rewrite <- (sqrt_sqrt q) at 3 by assumption. field. exact Er.
Qed.
Print Assumptions C28_complex_on_constraint_partial.
(** two degrees of freedom: the increment (3,0) with the correction (0,4) and the response
    (0,1) to the load cannot come near the arc length 1 *)
Definition exPlane : problem (VS_prod VS_R VS_R) R := @mkProblem (VS_prod VS_R VS_R) R
  (fun _ _ => Some (0, -4)) (fun _ _ => Some 1) (fun _ => true) (fun _ f => Some f) (fun _ x => (0, 0)) (fun m => [m]) (fun m => Some [m])
  (0, 1) (1, 1) 2.
Example C28_example : exists s,
  let s0 := set_jac (Some 1) (set_fact (Some 1) (set_resVec ((0, -4) : VS_prod VS_R VS_R) (set_dUt ((0, 1) : VS_prod VS_R VS_R)
    (set_DU ((3, 0) : VS_prod VS_R VS_R) (exSt (VS_prod VS_R VS_R) R 1))))) in
  iteration exPlane (exOpts 5) Crisfield s0 = Ret tt s /\ s_dUbar s = (0, 4) /\ s_DU s = (3/5, 4/5) /\ s_DL s = 0 /\
  forall eta x, arcSq exPlane (s_phi s0) (s_DU s0 +v eta *v s_dUbar s +v x *v s_dUt s) (s_DL s0 + x) <> s_len s0 * s_len s0.
Proof.
  eexists. cbv zeta. split; [ev|]. rcbv. split; [f_equal; lra|]. split; [f_equal; lra|]. split; [lra|].
  intros eta x. unfold arcSq. cbn. intros H. pose proof (Rle_0_sqr (eta * 4 + x)) as Q1. pose proof (Rle_0_sqr x) as Q2. unfold Rsqr in *. nra.
Qed.
(** The other fallback shortens the residual correction to a part [eta] of it, moved by 5 %
    away from the values of [eta] that meet the constraint, and so leaves the constraint.
    One degree of freedom, load 1, tangent 4/3, arc length 1, metric factor 1: from the
    predictor (3/5,4/5), where the correction is 5/2 and no load increment meets the
    constraint, the step converges to the increment (18/25,-27/50) of length 9/10. *)
Definition exJump : problem VS_R R := @mkProblem VS_R R
  (fun u l => if Reqb l (4/5) then Some (-10/3) else Some 0) (fun _ _ => Some (4/3)) (fun _ => true)
  (fun m f => Some (f / m)) (fun m x => m * x) (fun m => [m]) (fun m => Some [m]) 1 1 1.
Definition exLoose : opts := {|
  o_maxIt := 5; o_tol := 1/100; o_tolF := 1/100; o_tolU := 1/2; o_tau := 1; o_quasi := false; o_quasiInterval := (-1)%Z;
  o_bif := BifDeterminant; o_ldlt := true; o_verbose := false; o_relax := 1; o_spFail := true; o_spTestTol := 1/100;
  o_spTestIt := 5; o_spTolE := 1/100; o_spTolB := 0; o_phiUser := true; o_angle := AngStep |}.
Theorem C28_refuted : exists s', 
  step exJump exLoose Crisfield (setSolutionStep (1 : VS_R) 1 (exSt VS_R R 1)) = Ret tt s' /\ s_stat s' = Success /\
  points (s_log s') = [((3/5 : VS_R), 4/5); (s_U s', s_L s')] /\
  (forall x, arcSq exJump 1 ((3/5 : VS_R) +v (5/2 : VS_R) +v x *v (3/4 : VS_R)) (4/5 + x) <> 1 * 1) /\
  s_U s' = 18/25 /\ s_L s' = -27/50 /\ arcSq exJump (s_phi s') (s_U s') (s_L s') = 81/100.
Proof.
  eexists. split; [ev|]. rcbv. split; [reflexivity|]. split; [repeat f_equal; lra|]. split.
  - intros x. unfold arcSq. cbn. intros H. pose proof (Rle_0_sqr (5/4 * x + 5/2)) as Q. unfold Rsqr in Q. lra.
  - unfold arcSq. cbn. repeat split; lra.
Qed.
Print Assumptions C28_refuted.

(** ** C29: the chosen root *)
(** When |F| = 1, or the previous load increment vanishes, no other root has a larger inner
    product with the previous increment. *)
Theorem C29_chosen_root_partial {S : VS} {Mat} (p : problem S Mat) o s s' :
  o_relax o = 1 -> iteration p o Crisfield s = Ret tt s' ->
  dot (p_F p) (p_F p) = 1 \/ s_DLold s = 0 ->
  forall x, arcSq p (s_phi s) (s_DU s +v s_dUbar s' +v x *v s_dUt s') (s_DL s + x) = s_len s * s_len s ->
  arcDot p (s_phi s) (s_DUold s) (s_DLold s) (s_DU s +v s_dUbar s' +v x *v s_dUt s') (s_DL s + x) <=
  arcDot p (s_phi s) (s_DUold s) (s_DLold s) (s_DU s') (s_DL s').
Proof.
  intros Hr H HF x Hx. destruct (crisfield_iteration p o s s' Hr H) as (sa & eta & sb & E1 & E2 & K & T & U1 & U2 & U3 & U4 & U5 & U6 & U7 & U8 & _).
  injection K. intros. rewrite U5, U6, U1, U2 in *.
  replace (s_phi s) with (s_phi sa) in * by congruence. replace (s_DU s) with (s_DU sa) in * by congruence.
  replace (s_DL s) with (s_DL sa) in * by congruence. replace (s_len s) with (s_len sa) in * by congruence.
  replace (s_DUold s) with (s_DUold sa) in * by congruence. replace (s_DLold s) with (s_DLold sa) in * by congruence.
  destruct (lambdas_real p sa eta sb E2 (ex_intro _ x Hx)) as (Q1 & _ & Q2). specialize (Q2 x Hx). rewrite Q1.
  unfold arcDot. autorewrite with dot. destruct HF as [-> | HF]; [|rewrite HF in *]; nra.
Qed.
Print Assumptions C29_chosen_root_partial.
(** The comparison leaves out the factor |F|^2. A linear spring (4/3) u = 2 L, previous
    increment (-3,2), arc length 5, metric factor 1: both (3,2) and (-3,-2) are equilibria on
    the constraint; (3,2) has inner product 7 with the previous increment and the step takes
    (-3,-2). *)
Definition exLoad2 : problem VS_R R := @mkProblem VS_R R
  (fun u l => Some (4/3 * u - 2 * l)) (fun _ _ => Some (4/3)) (fun _ => true)
  (fun m f => Some (f / m)) (fun m x => m * x) (fun m => [m]) (fun m => Some [m]) 2 1 1.
Theorem C29_refuted : exists s s' : st VS_R R,
  step exLoad2 (exOpts 5) Crisfield s = Ret tt s' /\ s_stat s' = Success /\ s_U s = 0 /\ s_L s = 0 /\
  p_residual exLoad2 3 2 = Some 0 /\ arcSq exLoad2 (s_phi s) (3 : VS_R) 2 = s_len s * s_len s /\
  arcDot exLoad2 (s_phi s) (s_DUold s) (s_DLold s) (3 : VS_R) 2 = 7 /\
  s_U s' = -3 /\ s_L s' = -2 /\ arcDot exLoad2 (s_phi s) (s_DUold s) (s_DLold s) (s_U s') (s_L s') = -7.
Proof.
  exists (setSolutionStep (-3 : VS_R) 2 (exSt VS_R R 5)). eexists. split; [ev|]. rcbv. unfold arcSq, arcDot. cbn.
  repeat split; try lra. f_equal. lra.
Qed.
Print Assumptions C29_refuted.
Example C29_example : exists s, iteration exSpring (exOpts 5) Crisfield
    (set_fact (Some 2) (set_dUt (3/4 : VS_R) (set_DU (3/5 : VS_R) (set_DL (4/5) (setSolutionStep (1 : VS_R) 1 (exSt VS_R R 1)))))) = Ret tt s /\
  arcSq exSpring 1 ((3/5 : VS_R) +v s_dUbar s +v (-8/5) *v s_dUt s) (4/5 + -8/5) = 1 * 1 /\ s_DU s = 3/5 /\ s_DL s = 4/5.
Proof. eexists. split; [ev|]. rcbv. unfold arcSq. cbn. repeat split; lra. Qed.

(** ** C30: Riks *)
(** Riks' metric: phi |DU|^2 + (1 - phi) DL^2 *)
Definition riksSq {S : VS} (phi : R) (du : S) (dl : R) : R := phi * dot du du + (1 - phi) * (dl * dl).
Theorem C30_riks_increment {S : VS} {Mat} (p : problem S Mat) o s s' :
  iteration p o Riks s = Ret tt s' ->
  riksSq (s_phi s) (s_DU s') (s_DL s') =
    s_len s * s_len s + riksSq (s_phi s) (s_DU s' -v s_DU s) (s_DL s' - s_DL s) /\
  s_phi s' = s_phi s /\
  (0 <= s_phi s <= 1 -> s_len s * s_len s <= riksSq (s_phi s) (s_DU s') (s_DL s')).
Proof.
  unfold iteration. intros H. destruct (computeUbar p s) as [[] sa|] eqn:E1; [|discriminate]. cbn [obind] in H. cbv zeta in H.
  pose proof (keepOk (S:=S) (Mat:=Mat) keep4 _ s _ _ (computeUbar_keep p s) E1) as K. injection K. intros.
  unfold rdiv in H. destruct (Reqb _ 0) eqn:Ed; [discriminate|]. apply Reqb_false in Ed.
  injection H as <-. cbn [s_DU s_DL s_dL s_dU s_phi set_DU set_DL set_dU set_dL s_dUbar s_dUt].
  replace (s_phi s) with (s_phi sa) by congruence. replace (s_DU s) with (s_DU sa) by congruence.
  replace (s_DL s) with (s_DL sa) by congruence. replace (s_len s) with (s_len sa) by congruence.
  set (n := s_phi sa * _ + _ - _ + _) in *. set (d := 2 * (1 - s_phi sa) * s_DL sa + _) in *. set (l := - n / d).
  assert (El : l * d = - n) by (unfold l; field; exact Ed).
  assert (G : riksSq (s_phi sa) (s_DU sa +v (s_dUbar sa +v l *v s_dUt sa)) (s_DL sa + l) =
    s_len sa * s_len sa + riksSq (s_phi sa) (s_DU sa +v (s_dUbar sa +v l *v s_dUt sa) -v s_DU sa) (s_DL sa + l - s_DL sa)).
  { unfold riksSq. unfold n, d in El. autorewrite with dot in *.
    rewrite (dot_sym S (s_dUbar sa) (s_DU sa)), (dot_sym S (s_dUt sa) (s_DU sa)), (dot_sym S (s_dUt sa) (s_dUbar sa)) in *.
    rewrite ?(dot_sym S (s_DU sa) (s_U sa)) in El. lra. }
  split; [exact G|]. split; [reflexivity|]. intros Hp. rewrite G.
  set (du := s_DU sa +v _ -v _). set (dl := s_DL sa + l - s_DL sa). unfold riksSq. pose proof (dot_pos S du). nra.
Qed.
Print Assumptions C30_riks_increment.
(** a converged Riks step started without guess: distance() is at least the arc length *)
Lemma riks_predictor_phi {S : VS} {Mat} (p : problem S Mat) o (s s' : st S Mat) : predictor p o Riks s = Ret tt s' -> 0 < s_phi s' < 1.
Proof.
  unfold predictor. intros H. destruct (stepJacobian p s) as [[] s1|]; [|discriminate]. cbn [obind] in H.
  destruct (p_numDof p) as [|n] eqn:En; [discriminate|]. cbn [Nat.eqb] in H. cbv zeta in H.
  set (ph := if Nat.eqb n 0 then _ else _) in *.
  assert (P : 0 < ph < 1).
  { unfold ph. destruct n as [|n]; [cbn [Nat.eqb]; lra|]. cbn [Nat.eqb]. assert (1 < INR (Datatypes.S (Datatypes.S n))).
    { rewrite S_INR, S_INR. pose proof (pos_INR n). lra. }
    split; [apply Rmult_lt_0_compat; [lra|]; apply Rinv_0_lt_compat; lra|].
    unfold Rdiv. rewrite Rmult_1_l. rewrite <- Rinv_1. apply Rinv_lt_contravar; lra. }
  clearbody ph.
  match type of H with obind ?x _ = _ => destruct x as [[] s2|] eqn:E2; [|discriminate] end. cbn [obind] in H. injection H as <-.
  assert (E : s_phi s2 = ph).
  { destruct (close _ _ _ _).
    - unfold firstPredictor, solveSystem in E2. destruct (s_fact _); [|discriminate]. cbv zeta in E2. destruct (p_solve p _ _); [|discriminate].
      cbn [obind] in E2. destruct (Rleb _ _); [discriminate|]. injection E2 as <-. reflexivity.
    - unfold secantPredictor in E2. destruct (Reqb _ _); [discriminate|]. injection E2 as <-. reflexivity. }
  cbn. rewrite E. exact P.
Qed.
Theorem C30_riks_step {S : VS} {Mat} (p : problem S Mat) o s s' :
  (2 <= o_maxIt o)%nat -> 0 <= s_len s -> s_guess s = None ->
  step p o Riks s = Ret tt s' -> s_stat s' = Success ->
  exists d, distance p Riks (s_U s' -v s_U s) (s_L s' - s_L s) s' = Some d /\ s_len s <= d.
Proof.
  intros Hm Hl G H Hs.
  destruct (step_outcome _ _ _ _ _ H) as [(A & _)|[(_ & A & _)|(_ & _ & sP & sI & sJ & s1 & s7 & C & ->)]]; [contradiction|lia|].
  destruct C as [C0 C1 (C2 & C2' & _) C3 _ _ _ _ F].
  rewrite predict_noGuess in C0 by (rewrite started_guess; exact G). apply riks_predictor_phi in C0.
  pose proof (keepOk (S:=S) (Mat:=Mat) keep3 _ sI _ _ (iteration_keep p o Riks sI) C1) as K.
  destruct (finished_UL o Riks s1 s7 F) as (F1 & F2 & _ & _ & _ & _ & F3 & _).
  injection C2. injection K. injection C3. intros.
  destruct (C30_riks_increment p o sI sJ C1) as (_ & _ & Q). rewrite C2' in Q. specialize (Q ltac:(lra)).
  unfold distance. eexists. split; [reflexivity|]. cbn [s_U s_L s_phi set_stat].
  replace (s_U s7 -v s_U s) with (s_DU sJ) by (rewrite F1; replace (s_U s1) with (s_U s) by congruence; replace (s_DU s1) with (s_DU sJ) by congruence; vring).
  replace (s_L s7 - s_L s) with (s_DL sJ) by (rewrite F2; replace (s_L s1) with (s_L s) by congruence; replace (s_DL s1) with (s_DL sJ) by congruence; ring).
  replace (s_phi s7) with (s_phi sP) by congruence. rewrite norm_sq. unfold riksSq in Q. replace (s_len sI) with (s_len s) in Q by congruence.
  rewrite <- (sqrt_square (s_len s)) at 1 by exact Hl. apply sqrt_le_1_alt. exact Q.
Qed.
Print Assumptions C30_riks_step.
Lemma riks_step_phi {S : VS} {Mat} (p : problem S Mat) o s s' :
  (2 <= o_maxIt o)%nat -> s_guess s = None ->
  step p o Riks s = Ret tt s' -> s_stat s' = Success -> 0 < s_phi s' < 1.
Proof.
  intros Hm G H Hs.
  destruct (step_outcome _ _ _ _ _ H) as [(A & _)|[(_ & A & _)|(_ & _ & sP & sI & sJ & s1 & s7 & C & ->)]]; [contradiction|lia|].
  destruct C as [C0 C1 (C2 & C2' & _) C3 _ _ _ _ F].
  rewrite predict_noGuess in C0 by (rewrite started_guess; exact G). apply riks_predictor_phi in C0.
  pose proof (keepOk (S:=S) (Mat:=Mat) keep3 _ sI _ _ (iteration_keep p o Riks sI) C1) as K.
  destruct (finished_UL o Riks s1 s7 F) as (F1 & F2 & _ & _ & _ & _ & F3 & _).
  injection C2. injection K. injection C3. intros. cbn [s_phi set_stat]. replace (s_phi s7) with (s_phi sP) by congruence. exact C0.
Qed.
Example C30_example : exists s, step exSpring (exOpts 5) Riks (exSt VS_R R 3) = Ret tt s /\ s_stat s = Success /\
  29/10 < s_U s < 31/10 /\ s_guess s = None.
Proof. eexists. split; [ev|]. rcbv. repeat split; lra. Qed.

(** ** C31: consistent Crisfield *)
Theorem C31_consistent_increment {S : VS} {Mat} (p : problem S Mat) o s s' :
  iteration p o ConsistentCrisfield s = Ret tt s' ->
  arcSq p (s_phi s) (s_DU s') (s_DL s') =
    s_len s * s_len s + arcSq p (s_phi s) (s_DU s' -v s_DU s) (s_DL s' - s_DL s) /\
  s_phi s' = s_phi s /\ s_len s * s_len s <= arcSq p (s_phi s) (s_DU s') (s_DL s').
Proof.
  unfold iteration. intros H. destruct (computeUbar p s) as [[] sa|] eqn:E1; [|discriminate]. cbn [obind] in H. cbv zeta in H.
  pose proof (keepOk (S:=S) (Mat:=Mat) keep4 _ s _ _ (computeUbar_keep p s) E1) as K. injection K. intros.
  unfold rdiv in H. destruct (Reqb _ 0) eqn:Ed; [discriminate|]. apply Reqb_false in Ed.
  injection H as <-. cbn [s_DU s_DL s_dL s_dU s_phi set_DU set_DL set_dU set_dL s_dUbar s_dUt].
  replace (s_phi s) with (s_phi sa) by congruence. replace (s_DU s) with (s_DU sa) by congruence.
  replace (s_DL s) with (s_DL sa) by congruence. replace (s_len s) with (s_len sa) by congruence.
  set (n := dot (s_DU sa) (s_DU sa) + _ - _ + _) in *. set (d := dot (2 *v s_DU sa) (s_dUt sa) + _) in *. set (l := - n / d).
  assert (El : l * d = - n) by (unfold l; field; exact Ed).
  assert (G : arcSq p (s_phi sa) (s_DU sa +v (l *v s_dUt sa +v s_dUbar sa)) (s_DL sa + l) =
    s_len sa * s_len sa + arcSq p (s_phi sa) (s_DU sa +v (l *v s_dUt sa +v s_dUbar sa) -v s_DU sa) (s_DL sa + l - s_DL sa)).
  { unfold arcSq. unfold n, d in El. autorewrite with dot in *.
    rewrite (dot_sym S (s_dUbar sa) (s_DU sa)), (dot_sym S (s_dUt sa) (s_DU sa)), (dot_sym S (s_dUt sa) (s_dUbar sa)) in *. lra. }
  split; [exact G|]. split; [reflexivity|]. rewrite G.
  set (du := s_DU sa +v _ -v _). set (dl := s_DL sa + l - s_DL sa). unfold arcSq. pose proof (dot_pos S du).
  assert (0 <= s_phi sa * s_phi sa * dot (p_F p) (p_F p) * (dl * dl)).
  { apply Rmult_le_pos; [|apply Rle_0_sqr]. apply Rmult_le_pos; [apply Rle_0_sqr|apply dot_pos]. }
  lra.
Qed.
Print Assumptions C31_consistent_increment.
Example C31_example : exists s, step exSpring (exOpts 9) ConsistentCrisfield (exSt VS_R R 3) = Ret tt s /\ s_stat s = Success /\
  13/10 < s_U s < 14/10.
Proof. eexists. split; [ev|]. rcbv. repeat split; lra. Qed.
