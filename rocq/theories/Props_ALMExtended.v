(** * Properties C72-C74: extended iterations, located singular points, the bifurcation test *)
From Verif Require Import VS Status RunTac ALMBase ALMBaseProofs ALMStep ALMLog ALMPoints ALMRun ALMVerbose Props_ALMStep Props_ALMStab ALMSingular Props_ALMSingular.
Local Open Scope R_scope.

(** ** C72: the located point *)
Section Located.
Context {S : VS} {Mat : Type}.
Notation st := (st S Mat).
Variable p : problem S Mat.
Variable o : opts.
Implicit Types s : st.
Lemma refresh_ok u du s s' : refreshJacobian p u du s = Ret tt s' -> exists m, p_jacobian p u du = Some m /\ s_jac s' = Some m /\ s_fact s' = Some m.
Proof.
  unfold refreshJacobian, computeJacobianAt, factorizeMatrix. destruct (p_jacobian p u du) as [m|]; cbn [obind]; [|discriminate].
  destruct (p_factor p m) eqn:E; cbn [obind]; [|discriminate]. rewrite E. intros H. apply (f_equal outSt) in H. cbn [outSt] in H.
  subst s'. exists m. auto.
Qed.
Lemma stab_jac x s : s_jac (outSt (computeStability_ p o x false s)) = s_jac s.
Proof.
  unfold computeStability_, stabilityVec, factorizeMatrix. cbn [obind].
  repeat (match goal with |- context [match ?x with _ => _ end] => destruct x eqn:? end; cbn [obind outSt]); first [reflexivity|assumption|symmetry; assumption|congruence].
Qed.
Lemma extLoop_ok tol : forall n i s s', n <> O -> extendedLoop p o n i tol s = Ret true s' ->
  exists du m r, p_jacobian p (s_U s') du = Some m /\ s_jac s' = Some m /\ norm (p_mul p m (s_Vm s' +v s_DV s')) < tol /\
    p_residual p (s_U s') (s_L s') = Some r /\ s_resVec s' = r.
Proof.
  induction n as [|n IH]; intros i s s' Hn H; [contradiction|]; cbn [extendedLoop] in H; cbv zeta in H;
  (match type of H with obind ?x _ = _ => destruct x as [[] s1|]; cbn [obind] in H; [|discriminate] end);
  (match type of H with obind (refreshJacobian p ?u ?du ?t) _ = _ => set (s2 := t) in *; change u with (s_U s2 +v s_DU s2) in H; change du with (s_dU s2) in H; clearbody s2 end);
  (match type of H with obind ?x _ = _ => destruct x as [[] s3|] eqn:E3; cbn [obind] in H; [|discriminate] end);
  destruct (refresh_ok _ _ _ _ E3) as (m & J1 & J2 & _); rewrite J2 in H;
  pose proof (keepOk keep4 _ s2 _ _ (refreshJacobian_keep p _ _ s2) E3) as K3;
  set (s4 := set_resKT (norm (p_mul p m (s_Vm s3 +v s_DV s3))) s3) in *;
  unfold computeResidualAt in H; 
  change (s_U s4) with (s_U s3) in H; change (s_DU s4) with (s_DU s3) in H; change (s_L s4) with (s_L s3) in H; change (s_DL s4) with (s_DL s3) in H;
  destruct (p_residual p (s_U s3 +v s_DU s3) (s_L s3 + s_DL s3)) as [r|] eqn:Er; cbn [obind] in H; try discriminate;
  (match type of H with context [computeResidualNorms p ?t] => set (s5 := computeResidualNorms p t) in * end);
  assert (K5 : (s_U s5, s_DU s5, s_L s5, s_DL s5, s_Vm s5, s_DV s5, s_jac s5, s_resKT s5, s_resVec s5) =
     (s_U s3, s_DU s3, s_L s3, s_DL s3, s_Vm s3, s_DV s3, Some m, norm (p_mul p m (s_Vm s3 +v s_DV s3)), r)) by
    (unfold s5, computeResidualNorms; destruct (Nat.eqb _ _); cbn; rewrite J2; reflexivity);
  (match type of H with obind ?x _ = _ => destruct x as [[] s6|] eqn:E6; cbn [obind] in H; [|discriminate] end);
  (assert (K6 : keep4 s6 = keep4 s5 /\ s_jac s6 = s_jac s5 /\ s_resVec s6 = s_resVec s5) by
    (destruct (o_verbose o); [|apply (f_equal outSt) in E6; cbn in E6; rewrite E6; auto];
     split; [eapply keepOk; [apply computeStability__keep|exact E6]|];
     split; [pose proof (stab_jac (s_U s5) s5) as Q; rewrite E6 in Q; exact Q|];
     pose proof (f_equal outSt E6) as Q; cbn [outSt] in Q; rewrite <- Q; unfold computeStability_, stabilityVec, factorizeMatrix; cbn [obind];
     repeat (match goal with |- context [match ?x with _ => _ end] => destruct x end; cbn [obind outSt]); reflexivity));
  destruct K6 as (K6 & K7 & K8); injection K3; injection K5; injection K6; intros;
  destruct (Rltb (s_resKT s6) tol) eqn:Et.
  - apply Rltb_true in Et; apply (f_equal outSt) in H; cbn [outSt] in H; rewrite <- H; cbn;
    exists (s_dU s2), m, r; split; [|split; [congruence|split; [|split; congruence]]];
    [replace (s_U s6 +v s_DU s6) with (s_U s2 +v s_DU s2) by congruence; exact J1|
     replace (s_Vm s6 +v s_DV s6) with (s_Vm s3 +v s_DV s3) by congruence;
     replace (norm (p_mul p m (s_Vm s3 +v s_DV s3))) with (s_resKT s6) by congruence; exact Et].
  - destruct n as [|n]; [discriminate|]. exact (IH _ _ _ (Nat.neq_succ_0 n) H).
Qed.
End Located.
(** When the extended iterations converge (at least one is allowed), the tangent at the
    returned displacement maps the mode V + DV to a vector shorter than the tolerance. Missing:
    that the returned point is an equilibrium. *)
Theorem C72_located_point_partial {S : VS} {Mat} (p : problem S Mat) o u l tol s s' :
  (1 <= o_maxIt o)%nat -> extendedSystemSolve p o u l tol s = Ret true s' ->
  exists du m, p_jacobian p (s_U s') du = Some m /\ norm (p_mul p m (s_Vm s' +v s_DV s')) < tol.
Proof.
  intros Hm H. unfold extendedSystemSolve in H. cbv zeta in H.
  match type of H with obind ?x _ = _ => destruct x as [[] s1|]; cbn [obind] in H; [|discriminate] end.
  destruct (o_maxIt o) as [|n]; [lia|]. destruct (extLoop_ok p o tol _ _ _ s' (Nat.neq_succ_0 n) H) as (du & m & r & H1 & _ & H2 & _). eauto.
Qed.
Print Assumptions C72_located_point_partial.
(** the equilibrium is not tested: the point found is (1,1), but the force at displacement 1
    is 3/4; and a search with MaxIter 0 "converges" where it starts *)
Theorem C72_refuted : exists s s' : st VS_R R,
  extendedSystemSolve exLimit (spOpts 3 true 2 (1/100) 0 10) (1/2 : VS_R) (1/2) (1/100) (set_Vm (1 : VS_R) (exSt VS_R R 1)) = Ret true s /\
  s_U s = 1 /\ s_L s = 1 /\ p_residual exLimit (s_U s) (s_L s) = Some (-1/4) /\ p_residual exLimit 1 (3/4) = Some 0 /\
  extendedSystemSolve exLimit (spOpts 0 true 2 (1/100) 0 10) (1/2 : VS_R) (1/2) (1/100) (set_Vm (1 : VS_R) (exSt VS_R R 1)) = Ret true s' /\
  s_U s' = 1/2 /\ s_jac s' = Some 1.
Proof.
  eexists. eexists. split; [ev|]. split; [rcbv; reflexivity|]. split; [rcbv; reflexivity|].
  split; [rsimp; f_equal; lra|]. split; [rsimp; f_equal; lra|]. split; [ev|]. rcbv. split; reflexivity.
Qed.
Print Assumptions C72_refuted.

(** ** C73: the extended iteration *)
(** For linear exact solves: one extended iteration solves the equilibrium linearised at the
    current point, the null-vector equation linearised with the difference quotient of the
    tangent along the mode, and the linearised normalisation of the mode. *)
Theorem C73_extended_iteration {S : VS} {Mat} (p : problem S Mat) s s' :
  (forall m, linear (p_mul p m)) -> (forall m f x, p_solve p m f = Some x -> p_mul p m x = f) ->
  extendedSystemIteration p s = Ret tt s' ->
  let v := s_Vm s +v s_DV s in
  exists K Keps r, p_jacobian p (s_U s +v s_DU s) (s_dU s) = Some K /\ p_residual p (s_U s +v s_DU s) (s_L s + s_DL s) = Some r /\
    p_jacobian p (s_U s +v s_DU s +v epsExt *v v) v0 = Some Keps /\
    p_mul p K (s_dU s') +v r = s_dL s' *v p_F p /\
    p_mul p K (v +v s_dV s') +v (1 / epsExt) *v (p_mul p Keps (s_dU s') -v p_mul p K (s_dU s')) = v0 /\
    norm v + dot ((1 / norm v) *v v) (s_dV s') = 1.
Proof.
  intros LM SX H. cbv zeta. unfold extendedSystemIteration in H. unfold computeResidualAt in H.
  destruct (p_residual p (s_U s +v s_DU s) (s_L s + s_DL s)) as [r|] eqn:Er; cbn [obind isSome] in H; [|discriminate].
  cbv zeta in H. match type of H with obind (refreshJacobian p ?u ?du ?t) _ = _ => set (s1 := t) in * end.
  change (refreshJacobian p (s_U s1 +v s_DU s1) (s_dU s1) s1) with (refreshJacobian p (s_U s +v s_DU s) (s_dU s) s1) in H.
  destruct (refreshJacobian p (s_U s +v s_DU s) (s_dU s) s1) as [[] s2|] eqn:E2; cbn [obind] in H; [|discriminate].
  destruct (refresh_ok p _ _ _ _ E2) as (K & J1 & J2 & J3).
  pose proof (keepOk keep4 _ s1 _ _ (refreshJacobian_keep p _ _ s1) E2) as K2.
  assert (R2 : s_resVec s2 = r).
  { pose proof (f_equal outSt E2) as Q; cbn [outSt] in Q; rewrite <- Q. unfold refreshJacobian, computeJacobianAt, factorizeMatrix.
    repeat (match goal with |- context [match ?x with _ => _ end] => destruct x end; cbn [obind outSt]); reflexivity. }
  unfold computeUt, solveSystem in H. rewrite J3 in H. destruct (p_solve p K (p_F p)) as [ut|] eqn:Eut; cbn [obind isSome] in H; [|discriminate].
  set (s3 := set_dUt ut _) in *. unfold computeUbar, solveSystem in H. change (s_fact s3) with (s_fact s2) in H. rewrite J3 in H.
  change (s_resVec s3) with (s_resVec s2) in H. rewrite R2 in H.
  destruct (p_solve p K (vopp r)) as [ub|] eqn:Eub; cbn [obind isSome] in H; [|discriminate]. set (s4 := set_dUbar ub _) in *.
  assert (P4 : s_U s4 +v s_DU s4 = s_U s +v s_DU s /\ s_Vm s4 +v s_DV s4 = s_Vm s +v s_DV s).
  { injection K2. intros. unfold s4, s3. cbn. split; congruence. }
  destruct P4 as [P4 P5]. rewrite P4, P5 in H. unfold computeJacobianAt, factorizeMatrix in H.
  destruct (p_jacobian p (s_U s +v s_DU s +v epsExt *v (s_Vm s +v s_DV s)) v0) as [Ke|] eqn:EK; cbn [obind isSome] in H; [|discriminate].
  destruct (p_factor p Ke); cbn [obind] in H; [|discriminate]. cbn [s_jac set_fact logEv set_log] in H.
  set (s5 := set_fact (Some Ke) _) in *. change (s_jac s5) with (s_jac s2) in H. try change (s_jac s4) with (s_jac s2) in H. rewrite J2 in H.
  destruct (p_factor p K); cbn [obind] in H; [|discriminate]. set (s6 := set_fact (Some K) _) in *.
  change (s_fact s6) with (Some K) in H. cbn [obind] in H. change (s_Vm s5) with (s_Vm s4) in H. change (s_DV s5) with (s_DV s4) in H.
  rewrite P5 in H. change (s_dUt s5) with ut in H. change (s_dUbar s5) with ub in H. change (s_resVec s5) with (s_resVec s2) in H. rewrite R2 in H.
  set (v := s_Vm s +v s_DV s) in *.
  set (h1 := (1 / epsExt) *v p_mul p Ke ut -v (1 / epsExt) *v p_F p) in *.
  set (h2 := p_mul p K v +v (1 / epsExt) *v (p_mul p Ke ub +v r)) in *.
  destruct (p_solve p K (vopp h1)) as [vt|] eqn:Evt; cbn [obind isSome] in H; [|discriminate]. set (s7 := set_dVt vt _) in *.
  change (s_fact s7) with (Some K) in H. cbn [obind] in H.
  destruct (p_solve p K (vopp h2)) as [vb|] eqn:Evb; cbn [obind isSome] in H; [|discriminate]. set (s8 := set_dVbar vb _) in *.
  change (s_Vm s8) with (s_Vm s4) in H. change (s_DV s8) with (s_DV s4) in H. rewrite P5 in H.
  destruct (Reqb (norm v) 0) eqn:En; [discriminate|]. apply Reqb_false in En.
  change (s_dVbar s8) with vb in H. change (s_dVt s8) with vt in H. unfold rdiv in H.
  destruct (Reqb (dot ((1 / norm v) *v v) vt) 0) eqn:Ed; [discriminate|]. apply Reqb_false in Ed.
  apply (f_equal outSt) in H. cbn [outSt] in H. subst s'. cbn.
  apply SX in Eut, Eub, Evt, Evb. set (x := _ / _). assert (Hx : x * dot ((1 / norm v) *v v) vt = - (dot ((1 / norm v) *v v) vb + norm v - 1)) by (unfold x; field; exact Ed).
  clearbody x. exists K, Ke, r. do 3 (split; [first [assumption|reflexivity]|]).
  assert (KU : p_mul p K (x *v ut +v ub) = x *v p_F p -v r).
  { rewrite (lin_add _ (LM K)), (lin_scale _ (LM K)), Eut, Eub. vring. }
  split; [rewrite KU; vring|]. split.
  - rewrite KU. rewrite !(lin_add _ (LM K)), !(lin_scale _ (LM K)), Evt, Evb. rewrite (lin_add _ (LM Ke)), (lin_scale _ (LM Ke)). unfold h1, h2. vring.
  - rewrite dot_add_r, dot_scale_r. lra.
Qed.
Print Assumptions C73_extended_iteration.
Example C73_example : exists s, extendedSystemIteration exLimit (set_Vm (2 : VS_R) (setSolution (1/2 : VS_R) (1/4) (exSt VS_R R 1))) = Ret tt s /\
  s_dU s = 1/4 /\ s_dV s = -1 /\ s_dL s = 1/2.
Proof. eexists. split; [ev|]. rcbv. repeat split; lra. Qed.

(** ** C74: the bifurcation test *)
Lemma normalize_pos {S : VS} (v : S) : v <> v0 -> exists c, 0 < c /\ normalize v = c *v v.
Proof.
  intros H. destruct (normalize_unit v H) as [_ ->]. exists (1 / norm v). split; [|reflexivity].
  pose proof (norm_pos v). assert (norm v <> 0) by (rewrite norm_zero; exact H).
  unfold Rdiv. rewrite Rmult_1_l. apply Rinv_0_lt_compat. lra.
Qed.
Lemma iter_shift {A} (f : A -> A) n x : Nat.iter (Datatypes.S n) f x = Nat.iter n f (f x).
Proof. induction n as [|n IH]; [reflexivity|]. cbn [Nat.iter nat_rect] in *. f_equal. exact IH. Qed.
Lemma testLoop_power {S : VS} {Mat} (p : problem S Mat) (inv : S -> S) m : linear inv -> (forall f, p_solve p m f = Some (inv f)) ->
  forall n (s : st S Mat) w, s_fact s = Some m -> (exists c, 0 < c /\ s_Vm s = c *v w) -> norm (s_Vm s) = 1 ->
  (forall k, (k <= n)%nat -> Nat.iter k inv w <> v0) ->
  exists s', testLoop p n s = Ret tt s' /\ norm (s_Vm s') = 1 /\ exists c, 0 < c /\ s_Vm s' = c *v Nat.iter n inv w.
Proof.
  intros LI SX. induction n as [|n IH]; intros s w Hf (c & Hc & Hv) Hu Hz; cbn [testLoop].
  - exists s. split; [reflexivity|]. split; [exact Hu|]. exists c. auto.
  - unfold solveSystem. rewrite Hf, SX. cbn [obind isSome].
    set (s1 := set_Vm _ _). assert (V1 : s_Vm s1 = normalize (inv (s_Vm s))) by reflexivity.
    assert (Hi : inv (s_Vm s) = c *v inv w) by (rewrite Hv; apply (lin_scale _ LI)).
    assert (Hw : inv w <> v0) by (apply (Hz 1%nat); lia).
    assert (Hne : inv (s_Vm s) <> v0).
    { rewrite Hi. intros E. apply Hw. replace (inv w) with ((1 / c) *v (c *v inv w)) by (vfield; lra). rewrite E. vring. }
    destruct (normalize_pos _ Hne) as (d & Hd & N1). destruct (normalize_unit _ Hne) as [N2 _].
    destruct (IH s1 (inv w)) as (s' & H1 & H2 & e & He & H3).
    + exact Hf.
    + exists (d * c). split; [nra|]. rewrite V1, N1, Hi. vring.
    + rewrite V1. exact N2.
    + intros k Hk. rewrite <- iter_shift. apply (Hz (Datatypes.S k)). lia.
    + exists s'. split; [exact H1|]. split; [exact H2|]. exists e. split; [exact He|]. rewrite H3. f_equal. rewrite <- iter_shift. reflexivity.
Qed.
(** With linear solves, the test computes the unit vector of the SPTestIt-th inverse iterate w of
    the vector of ones and answers whether |w . F| < SPTestTol * |w|. *)
Theorem C74_bifurcation_test {S : VS} {Mat} (p : problem S Mat) o (inv : S -> S) m (jacobian : bool) (s : st S Mat) :
  linear inv -> (forall f, p_solve p m f = Some (inv f)) -> p_factor p m = true ->
  (if jacobian then p_jacobian p (s_U s) (s_dU s) = Some m else s_jac s = Some m) ->
  (forall k, (k <= o_spTestIt o)%nat -> Nat.iter k inv (p_ones p) <> v0) ->
  let w := Nat.iter (o_spTestIt o) inv (p_ones p) in
  exists b s', isBifurcation p o jacobian s = Ret b s' /\ s_Vm s' = (1 / norm w) *v w /\
    (b = true <-> Rabs (dot w (p_F p)) < o_spTestTol o * norm w).
Proof.
  intros LI SX Hfa Hj Hz w. unfold isBifurcation, testSingularPoint.
  assert (E1 : exists s1, (if jacobian then refreshJacobian p (s_U s) (s_dU s) s else Ret tt s) = Ret tt s1 /\ s_jac s1 = Some m).
  { destruct jacobian; [|exists s; split; [reflexivity|exact Hj]].
    unfold refreshJacobian, computeJacobianAt, factorizeMatrix. rewrite Hj. cbn [obind]. rewrite Hfa. cbn [obind]. rewrite Hfa. eexists. split; reflexivity. }
  destruct E1 as (s1 & -> & Hj1). cbn [obind]. cbv zeta. unfold refactorize. cbn [s_jac set_Vm]. 
  match goal with |- context [match ?x with None => _ | Some _ => _ end] => change x with (s_jac s1); rewrite Hj1 end.
  unfold factorizeMatrix. rewrite Hfa. cbn [obind].
  destruct (normalize_pos (p_ones p) (Hz 0%nat ltac:(lia))) as (c & Hc & N1). destruct (normalize_unit (p_ones p) (Hz 0%nat ltac:(lia))) as [N2 _].
  match goal with |- context [testLoop p _ ?t] => set (s2 := t) end.
  assert (V2 : s_Vm s2 = normalize (p_ones p)) by reflexivity.
  destruct (testLoop_power p inv m LI SX (o_spTestIt o) s2 (p_ones p)) as (s' & H1 & H2 & e & He & H3).
  - reflexivity.
  - exists c. split; [exact Hc|]. rewrite V2. exact N1.
  - rewrite V2. exact N2.
  - exact Hz.
  - rewrite H1. cbn [obind]. fold w in H3. exists (Rltb (Rabs (dot (s_Vm s') (p_F p))) (o_spTestTol o)), s'. split; [reflexivity|].
    assert (Nw : norm w <> 0) by (rewrite norm_zero; apply Hz; lia). pose proof (norm_pos w) as Pw.
    assert (e * norm w = 1) by (rewrite H3, norm_scale, Rabs_right in H2; lra).
    assert (Ee : e = 1 / norm w) by (apply Rmult_eq_reg_r with (norm w); [|exact Nw]; field_simplify; lra).
    split; [rewrite H3, Ee; reflexivity|]. rewrite Rltb_true, H3, dot_scale, Rabs_mult, (Rabs_right e) by lra.
    split; intros Q.
    + apply Rmult_lt_compat_r with (r := norm w) in Q; [|lra]. replace (e * Rabs (dot w (p_F p)) * norm w) with ((e * norm w) * Rabs (dot w (p_F p))) in Q by ring. rewrite H in Q. lra.
    + apply Rmult_lt_reg_r with (norm w); [lra|]. replace (e * Rabs (dot w (p_F p)) * norm w) with ((e * norm w) * Rabs (dot w (p_F p))) by ring. rewrite H. lra.
Qed.
Print Assumptions C74_bifurcation_test.
(** stiffness 4 in the first and 1 in the second direction, load (1, 0): the first iterate of
    the ones is (1/4, 1), which passes the test with tolerance 1/2 *)
Definition exTwo : problem (VS_prod VS_R VS_R) unit := @mkProblem (VS_prod VS_R VS_R) unit
  (fun u l => Some (4 * fst u - l, snd u)) (fun _ _ => Some tt) (fun _ => true) (fun _ f => Some (fst f / 4, snd f))
  (fun _ x => (4 * fst x, snd x)) (fun _ => [4; 1]) (fun _ => Some [1; 4]) (1, 0) (1, 1) 2.
Example C74_example : exists s : st (VS_prod VS_R VS_R) unit,
  isBifurcation exTwo (spOpts 2 true (1/2) (1/100) 0 10) true (exSt _ _ 1) = Ret true s /\ snd (s_Vm s) = 4 * fst (s_Vm s).
Proof.
  destruct (C74_bifurcation_test exTwo (spOpts 2 true (1/2) (1/100) 0 10) (fun f : VS_prod VS_R VS_R => (fst f / 4, snd f) : VS_prod VS_R VS_R) tt true (exSt _ _ 1)) as (b & s & H1 & H2 & H3).
  - split; intros; apply injective_projections; cbn; lra.
  - reflexivity.
  - reflexivity.
  - reflexivity.
  - intros k Hk E. cbn in Hk. destruct k as [|[|k]]; [| |lia]; apply (f_equal snd) in E; cbn in E; lra.
  - exists s. rewrite H1. split.
    + f_equal. apply H3. cbn [o_spTestIt spOpts Nat.iter nat_rect o_spTestTol].
      set (w := _ : VS_prod VS_R VS_R). pose proof (norm_pos w). pose proof (norm_sq w) as Q.
      assert (D : dot w w = 17/16) by (unfold w; cbn; lra). assert (D2 : dot w (p_F exTwo) = 1/4) by (unfold w; cbn; lra).
      rewrite D2, Rabs_right by lra. nra.
    + rewrite H2. cbn. lra.
Qed.
