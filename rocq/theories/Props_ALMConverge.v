(** Convergence of load control, Riks and consistent Crisfield near the predicted point: C112. *)
From Verif Require Import VS Status RunTac ALMBase ALMBaseProofs ALMStep ALMLog ALMPoints ALMRun NewtonConv Props_Static6.
Local Open Scope R_scope.

(** computeStability can be evaluated: no indicator is taken of an empty vector *)
Record stabReady {S : VS} {Mat : Type} (p : problem S Mat) (o : opts) : Prop := {
  sr_bif : o_bif o <> BifUnknown; sr_dof : p_numDof p <> 0%nat;
  sr_diag : forall m, p_diag p m <> []; sr_eig : forall m l, p_eig p m = Some l -> l <> [] }.

Section Runs.
Context {S : VS} {Mat : Type}.
Variables (p : problem S Mat) (o : opts).
Implicit Types s : st S Mat.
Lemma jac_run m s : p_jacobian p (s_U s +v s_DU s) (s_dU s) = Some m -> p_factor p m = true ->
  exists s1, stepJacobian p s = Ret tt s1 /\ keep4 s1 = keep4 s /\ s_fact s1 = Some m /\ s_jac s1 = Some m /\ s_resVec s1 = s_resVec s.
Proof.
  intros J F. unfold stepJacobian, refreshJacobian, computeJacobianAt, factorizeMatrix. rewrite J. cbn [obind isSome]. rewrite F. cbn [obind]. rewrite F. eexists. split; [reflexivity|]. repeat split.
Qed.
Lemma ut_run m t s : s_fact s = Some m -> p_solve p m (p_F p) = Some t ->
  exists s1, computeUt p s = Ret tt s1 /\ keep4 s1 = keep4 s /\ s_fact s1 = Some m /\ s_jac s1 = s_jac s /\ s_resVec s1 = s_resVec s /\ s_dUt s1 = t.
Proof. intros F E. unfold computeUt, solveSystem. rewrite F, E. cbn [obind isSome]. eexists. split; [reflexivity|]. repeat split. exact F. Qed.
Lemma ubar_run m d s : s_fact s = Some m -> p_solve p m (vopp (s_resVec s)) = Some d ->
  exists s1, computeUbar p s = Ret tt s1 /\ keep4 s1 = keep4 s /\ s_jac s1 = s_jac s /\ s_dUt s1 = s_dUt s /\ s_dUbar s1 = d.
Proof. intros F E. unfold computeUbar, solveSystem. rewrite F, E. cbn [obind isSome]. eexists. split; [reflexivity|]. repeat split. Qed.
Lemma minCoeff_some l : l <> [] -> exists x, minCoeff l = Some x.
Proof. destruct l as [|x l]; [congruence|]. intros _. cbn. destruct (minCoeff l); eauto. Qed.
Lemma stab_run m s : stabReady p o -> s_jac s = Some m -> exists s1, computeStability p o false s = Ret tt s1 /\ s_jac s1 = Some m.
Proof.
  intros [B D G E] J. unfold computeStability, computeStability_. cbn [obind]. unfold stabilityVec. destruct (o_bif o) eqn:Eb; [| | |congruence].
  - cbn [obind]. destruct (minCoeff_some (repeat 0 (p_numDof p))) as [x ->]; [destruct (p_numDof p); [congruence|discriminate]|]. eexists. split; [reflexivity|exact J].
  - destruct (o_ldlt o).
    + rewrite J. unfold factorizeMatrix. destruct (p_factor p m).
      * cbn [obind]. destruct (minCoeff_some _ (G m)) as [x ->]. eexists. split; [reflexivity|exact J].
      * cbn. eexists. split; [reflexivity|exact J].
    + cbn. eexists. split; [reflexivity|exact J].
  - rewrite J. destruct (p_eig p m) as [l|] eqn:El.
    + cbn [obind]. destruct (minCoeff_some _ (E m l El)) as [x ->]. eexists. split; [reflexivity|exact J].
    + cbn. eexists. split; [reflexivity|exact J].
Qed.
Lemma res_run r s : p_residual p (s_U s +v s_DU s) (s_L s + s_DL s) = Some r -> exists s1, computeResidual p s = Ret tt s1 /\ keep4 s1 = keep4 s /\ s_resVec s1 = r /\ s_jac s1 = s_jac s.
Proof. intros E. unfold computeResidual, computeResidualAt. rewrite E. cbn [obind isSome]. eexists. split; [reflexivity|]. repeat split. Qed.
(** the predictors leave a matrix behind *)
Lemma bindJ {A B} (x : out S Mat A) (f : A -> st S Mat -> out S Mat B) b s' : (forall a s1, x = Ret a s1 -> s_jac s1 <> None) ->
  (forall a s1, s_jac s1 <> None -> f a s1 = Ret b s' -> s_jac s' <> None) -> obind x f = Ret b s' -> s_jac s' <> None.
Proof. destruct x as [a s1|]; cbn; [|discriminate]. intros H1 H2. apply (H2 a). apply (H1 a). reflexivity. Qed.
Definition jk (f : st S Mat -> out S Mat unit) : Prop := forall s s', s_jac s <> None -> f s = Ret tt s' -> s_jac s' <> None.
Lemma jk_solve f s x s' : s_jac s <> None -> solveSystem p f s = Ret x s' -> s_jac s' <> None.
Proof. unfold solveSystem. destruct (s_fact s); [|discriminate]. destruct (p_solve p m f); [|discriminate]. intros H E. injection E as _ <-. exact H. Qed.
Lemma jk_ut : jk (computeUt p).
Proof. intros s s' H. unfold computeUt. apply bindJ; [intros a s1; apply jk_solve; exact H|]. intros a s1 H1 E. injection E as <-. exact H1. Qed.
Lemma jk_first : jk (firstPredictor p).
Proof.
  intros s s' H. unfold firstPredictor. apply bindJ; [intros a s1; apply jk_solve; exact H|]. intros a s1 H1 E. destruct (Rleb _ _); [discriminate|]. injection E as <-. exact H1.
Qed.
Lemma jk_secant u1 l1 u0 l0 : jk (secantPredictor u1 l1 u0 l0).
Proof. intros s s' H. unfold secantPredictor. destruct (Reqb _ _); [discriminate|]. intros E. injection E as <-. exact H. Qed.
Lemma jk_phi : jk (defaultPhi p o).
Proof. intros s s' H. unfold defaultPhi. destruct (o_phiUser o); [intros E; injection E as <-; exact H|]. destruct (rdiv _ _); [|discriminate]. intros E. injection E as <-. exact H. Qed.
Lemma jk_jac s s' : stepJacobian p s = Ret tt s' -> s_jac s' <> None.
Proof.
  unfold stepJacobian, refreshJacobian, computeJacobianAt, factorizeMatrix. destruct (p_jacobian p _ _) as [m|]; [|discriminate]. cbn [obind isSome].
  destruct (p_factor p m) eqn:F; cbn [obind]; [|discriminate]. rewrite F. intros E. injection E as <-. cbn. discriminate.
Qed.
Lemma predict_jac k s s' : k <> Crisfield -> predict p o k s = Ret tt s' -> s_jac s' <> None.
Proof.
  intros K. assert (P : predictor p o k s = Ret tt s' -> s_jac s' <> None).
  { unfold predictor. apply bindJ; [intros [] s1; apply jk_jac|]. intros [] s1 H1. destruct k; [| |congruence|].
    - apply bindJ; [intros [] z; refine (jk_ut _ z _); exact H1|]. intros [] s2 H2 E. injection E as <-. exact H2.
    - destruct (p_numDof p =? 0)%nat; [discriminate|]. apply bindJ; [intros [] z; destruct (close _ _ _ _); [refine (jk_first _ z _); exact H1|refine (jk_secant _ _ _ _ _ z _); exact H1]|]. intros [] s2 H2 E. injection E as <-. exact H2.
    - apply bindJ; [intros [] z; destruct (close _ _ _ _); [refine (jk_first _ z _); exact H1|refine (jk_secant _ _ _ _ _ z _); exact H1]|]. intros [] s2 H2. apply bindJ; [intros [] z; refine (jk_phi _ z _); exact H2|]. intros [] s3 H3 E. injection E as <-. exact H3. }
  unfold predict. destruct (s_guess s) as [[ug lg]|]; [|exact P]. destruct (_ && _); [|exact P].
  unfold predictorGuess. apply bindJ; [intros [] s1; apply jk_jac|]. intros [] s1 H1. destruct k; [| |congruence|].
  - apply bindJ; [intros [] z; refine (jk_ut _ z _); exact H1|]. intros [] s2 H2 E. injection E as <-. exact H2.
  - apply bindJ; [intros [] z; refine (jk_ut _ z _); exact H1|]. intros [] s2 H2. apply bindJ; [intros [] z; destruct (close _ _ _ _); [refine (jk_first _ z _); exact H2|refine (jk_secant _ _ _ _ _ z _); exact H2]|]. intros [] s3 H3 E. injection E as <-. exact H3.
  - apply bindJ; [intros [] z; destruct (close _ _ _ _); [refine (jk_first _ z _); exact H1|refine (jk_secant _ _ _ _ _ z _); exact H1]|]. intros [] s2 H2. apply bindJ; [intros [] z; refine (jk_phi _ z _); exact H2|]. intros [] s3 H3 E. injection E as <-. exact H3.
Qed.
End Runs.

(** the equation that a step of the method adds to the equilibrium, for the increments D = (DU, DL);
    [l0] the load increment of load control *)
Definition consOf {S : VS} {Mat : Type} (p : problem S Mat) (k : kind) (phi len l0 : R) (D : VS_prod S VS_R) : R :=
  match k with
  | Riks => phi * dot (fst D) (fst D) + (1 - phi) * (snd D * snd D) - len * len
  | LoadControl => snd D - l0
  | _ => dot (fst D) (fst D) + phi * phi * (snd D * snd D) * dot (p_F p) (p_F p) - len * len
  end.
(** its derivative in the direction x *)
Definition dconsOf {S : VS} {Mat : Type} (p : problem S Mat) (k : kind) (phi : R) (D x : VS_prod S VS_R) : R :=
  match k with
  | Riks => 2 * phi * dot (fst D) (fst x) + 2 * (1 - phi) * snd D * snd x
  | LoadControl => snd x
  | _ => 2 * dot (fst D) (fst x) + 2 * phi * phi * snd D * snd x * dot (p_F p) (p_F p)
  end.
(** half of its second derivative is at most this *)
Definition curvOf {S : VS} {Mat : Type} (p : problem S Mat) (k : kind) (phi : R) : R :=
  match k with Riks => Rabs phi + Rabs (1 - phi) | LoadControl => 0 | _ => 1 + phi * phi * dot (p_F p) (p_F p) end.
(** The equations of a step from (U, L) are regular within the distance [rho] of the predicted
    increments [D0]: residual, tangent and factorisation exist, every solve is exact, tangent and
    additional equation together enlarge vectors by at least 1/[beta], and the tangent and the load
    vector predict the residual with an error of at most [gamma] |x|^2. *)
Record regularALM {S : VS} {Mat : Type} (p : problem S Mat) (k : kind) (res : S -> R -> S) (U : S) (L : R) (D0 : VS_prod S VS_R) (phi rho beta gamma : R) : Prop := {
  ra_res : forall D, norm (D -v D0) <= rho -> p_residual p (U +v fst D) (L + snd D) = Some (res (U +v fst D) (L + snd D));
  ra_jac : forall D du, norm (D -v D0) <= rho -> exists m, p_jacobian p (U +v fst D) du = Some m /\ p_factor p m = true /\ linear (p_mul p m) /\
    (forall f, exists x, p_solve p m f = Some x /\ p_mul p m x = f) /\
    (forall x : VS_prod S VS_R, norm x <= beta * norm ((p_mul p m (fst x) -v snd x *v p_F p, dconsOf p k phi D x) : VS_prod S VS_R)) /\
    (forall x : VS_prod S VS_R, norm (D +v x -v D0) <= rho ->
      norm (res (U +v fst (D +v x)) (L + snd (D +v x)) -v (res (U +v fst D) (L + snd D) +v p_mul p m (fst x) -v snd x *v p_F p)) <= gamma * (norm x * norm x)) }.

Section Conv.
Context {S : VS} {Mat : Type}.
Notation SR := (VS_prod S VS_R).
Variables (p : problem S Mat) (o : opts) (k : kind) (res : S -> R -> S) (U : S) (L : R) (D0 : SR) (phi len beta gamma rho bF bU : R).
Notation cons := (consOf p k phi len (snd D0)). Notation dcons := (dconsOf p k phi). Notation curv := (curvOf p k phi).
(** the defects after the increments D0 + E *)
Definition almRes (E : SR) : SR := (vopp (res (U +v fst (D0 +v E)) (L + snd (D0 +v E))), - cons (D0 +v E)).
Hypothesis HK : k <> Crisfield.
Hypothesis Hb : 0 <= beta. Hypothesis Hgm : 0 <= gamma.
Hypothesis RG : regularALM p k res U L D0 phi rho beta gamma.
Hypothesis SR0 : stabReady p o.
Hypothesis HQ : o_quasi o = false.
Implicit Types s : st S Mat.

Lemma norm_pair (a : S) (b : R) : norm ((a, b) : SR) <= norm a + Rabs b.
Proof.
  pose proof (norm_pos a). pose proof (Rabs_pos b). apply Rsqr_incr_0_var; [|lra]. unfold Rsqr. rewrite norm_sq. cbn. rewrite <- norm_sq.
  assert (b * b = Rabs b * Rabs b) by (rewrite <- Rabs_mult, Rabs_pos_eq; [reflexivity|apply Rle_0_sqr]). assert (0 <= norm a * Rabs b) by (apply Rmult_le_pos; assumption). lra.
Qed.
Lemma norm_1 (x : SR) : norm (fst x) <= norm x.
Proof. unfold norm. apply sqrt_le_1_alt. cbn. pose proof (Rle_0_sqr (snd x)) as Q. unfold Rsqr in Q. cbn in *. lra. Qed.
Lemma norm_2 (x : SR) : Rabs (snd x) <= norm x.
Proof. rewrite <- sqrt_Rsqr_abs. unfold norm. apply sqrt_le_1_alt. unfold Rsqr. destruct x as [a b]. cbn. pose proof (dot_pos S a). lra. Qed.
Lemma curv_pos : 0 <= curv.
Proof.
  unfold curvOf. assert (0 <= 1 + phi * phi * dot (p_F p) (p_F p)) by (pose proof (Rle_0_sqr phi) as Q; unfold Rsqr in Q; pose proof (Rmult_le_pos _ _ Q (dot_pos S (p_F p))); lra).
  pose proof (Rabs_pos phi). pose proof (Rabs_pos (1 - phi)). destruct k; lra.
Qed.
Lemma gc_pos : 0 <= gamma + curv.
Proof. pose proof curv_pos. lra. Qed.
(** Taylor's formula for the additional equation *)
Lemma cons_taylor (D x : SR) : Rabs (cons (D +v x) - (cons D + dcons D x)) <= curv * (norm x * norm x).
Proof.
  rewrite norm_sq. destruct D as [A a], x as [B b]. pose proof (dot_pos S B) as P1. pose proof (Rle_0_sqr b) as P2. unfold Rsqr in P2. cbn in a, b.
  unfold consOf, dconsOf, curvOf. cbn. destruct k; [| |contradiction|].
  - match goal with |- Rabs ?y <= _ => replace y with 0 by ring end. rewrite Rabs_R0. lra.
  - match goal with |- Rabs ?y <= _ => replace y with (phi * dot B B + (1 - phi) * (b * b)) end.
    2:{ autorewrite with dot. rewrite (dot_sym S B A). ring. }
    eapply Rle_trans; [apply Rabs_triang|]. rewrite (Rabs_mult phi), (Rabs_mult (1 - phi)), (Rabs_pos_eq (dot _ _)), (Rabs_pos_eq (b * b)) by assumption.
    pose proof (Rabs_pos phi) as Q1. pose proof (Rabs_pos (1 - phi)) as Q2. pose proof (Rmult_le_pos _ _ Q1 P2). pose proof (Rmult_le_pos _ _ Q2 P1). lra.
  - match goal with |- Rabs ?y <= _ => replace y with (dot B B + phi * phi * dot (p_F p) (p_F p) * (b * b)) end.
    2:{ autorewrite with dot. rewrite (dot_sym S B A). ring. }
    pose proof (Rle_0_sqr phi) as Q. unfold Rsqr in Q. pose proof (Rmult_le_pos _ _ Q (dot_pos S (p_F p))) as Q1. set (c := phi * phi * dot (p_F p) (p_F p)) in *.
    pose proof (Rmult_le_pos _ _ Q1 P2). pose proof (Rmult_le_pos _ _ Q1 P1). rewrite Rabs_pos_eq by lra. lra.
Qed.
Lemma alm_ball (E : SR) : norm E <= rho -> norm (D0 +v E -v D0) <= rho.
Proof. intros H. replace (D0 +v E -v D0) with E by vring. exact H. Qed.
(** the state in which a pass starts *)
Record at_ (E : SR) s : Prop := {
  at_U : s_U s = U; at_L : s_L s = L; at_len : s_len s = len; at_phi : s_phi s = phi; at_DU : s_DU s = fst (D0 +v E); at_DL : s_DL s = snd (D0 +v E);
  at_lc : k = LoadControl -> snd E = 0; at_res : s_resVec s = res (U +v fst (D0 +v E)) (L + snd (D0 +v E)); at_bF : s_basF s = bF; at_bU : s_basU s = bU }.
Lemma iter_run (E : SR) s : at_ E s -> norm E <= rho -> exists (e : SR) s1 s2 m, norm e <= beta * norm (almRes E) /\
  (norm (E +v e) <= rho -> norm (almRes (E +v e)) <= (gamma + curv) * (norm e * norm e)) /\
  quasiNewtonIteration p k s = Ret tt s1 /\ iteration p o k s1 = Ret tt s2 /\ keep3 s2 = keep3 s /\ s_jac s2 = Some m /\
  s_DU s2 = fst (D0 +v (E +v e)) /\ s_DL s2 = snd (D0 +v (E +v e)) /\ s_dU s2 = fst e /\ (k = LoadControl -> snd e = 0).
Proof.
  intros AT BE. destruct (ra_jac _ _ _ _ _ _ _ _ _ _ RG (D0 +v E) (s_dU s) (alm_ball E BE)) as (m & J & FC & LM & SV & BD & TY).
  destruct (SV (p_F p)) as (t & St & Mt). destruct (SV (vopp (s_resVec s))) as (d & Sd & Md). rewrite (at_res _ _ AT) in Md.
  rewrite <- (at_U _ _ AT), <- (at_DU _ _ AT) in J. destruct (jac_run p m s J FC) as (sa & Ra & Ka & Fa & Ja & Va).
  set (r := res (U +v fst (D0 +v E)) (L + snd (D0 +v E))) in *.
  (* the increment *)
  assert (IT : exists (e : SR) s1 s2, p_mul p m (fst e) -v snd e *v p_F p = vopp r /\ dcons (D0 +v E) e = - cons (D0 +v E) /\
    quasiNewtonIteration p k s = Ret tt s1 /\ iteration p o k s1 = Ret tt s2 /\ keep3 s2 = keep3 s /\ s_jac s2 = Some m /\
    s_DU s2 = fst (D0 +v (E +v e)) /\ s_DL s2 = snd (D0 +v (E +v e)) /\ s_dU s2 = fst e /\ (k = LoadControl -> snd e = 0)).
  { assert (KE : k = LoadControl \/ k <> LoadControl) by (destruct k; [left; reflexivity|right; discriminate..]). destruct KE as [KE|KE].
    - (* load control *)
      rewrite <- Va in Sd. destruct (ubar_run p m d sa Fa Sd) as (sb & Rb & Kb & Jb & _ & Db).
      assert (EK : keep4 sb = keep4 s) by congruence. injection EK as. exists ((d, 0) : SR). eexists. eexists.
      split; [cbn; rewrite Md; vring|]. split. { rewrite KE. cbn. pose proof (at_lc _ _ AT KE) as Z. cbn in Z. rewrite Z. ring. }
      split; [unfold quasiNewtonIteration; rewrite Ra, KE; reflexivity|]. split; [unfold iteration; rewrite Rb, KE; reflexivity|].
      cbn. unfold keep3, keep2, keep1. cbn. split; [congruence|]. split; [congruence|]. rewrite Db.
      pose proof (at_DU _ _ AT) as A1. pose proof (at_DL _ _ AT) as A2. cbn in A1, A2.
      split; [|split; [|split; [reflexivity|reflexivity]]].
      + replace (s_DU sb) with (s_DU s) by congruence. rewrite A1. vring.
      + replace (s_DL sb) with (s_DL s) by congruence. rewrite A2. ring.
    - destruct (ut_run p m t sa Fa St) as (sb & Rb & Kb & Fb & Jb & Vb & Tb). rewrite <- Va, <- Vb in Sd.
      destruct (ubar_run p m d sb Fb Sd) as (sc & Rc & Kc & Jc & Tc & Dc).
      assert (EK : keep4 sc = keep4 s) by congruence. injection EK as.
      assert (X1 : s_DU sc = fst (D0 +v E)) by (rewrite <- (at_DU _ _ AT); congruence). assert (X2 : s_DL sc = snd (D0 +v E)) by (rewrite <- (at_DL _ _ AT); congruence).
      assert (X3 : s_phi sc = phi) by (rewrite <- (at_phi _ _ AT); congruence). assert (X4 : s_len sc = len) by (rewrite <- (at_len _ _ AT); congruence).
      assert (X5 : s_dUt sc = t) by congruence.
      assert (QN : quasiNewtonIteration p k s = Ret tt sb) by (unfold quasiNewtonIteration; rewrite Ra; cbn [obind]; destruct k; [congruence|exact Rb..]).
      assert (NZ : dcons (D0 +v E) (t, 1) <> 0).
      { intros Z. pose proof (BD (t, 1)) as B. cbn [fst snd] in B. rewrite Z, Mt in B. replace (p_F p -v 1 *v p_F p) with (v0 : S) in B by vring.
        replace (norm ((v0, 0) : SR)) with 0 in B by (symmetry; apply (norm_0 (S := SR))). pose proof (norm_2 (t, 1)) as Q. cbn [snd] in Q. rewrite Rabs_R1 in Q. lra. }
      set (l := (- cons (D0 +v E) - dcons (D0 +v E) (d, 0)) / dcons (D0 +v E) (t, 1)).
      exists ((d +v l *v t, l) : SR), sb.
      assert (LI : dcons (D0 +v E) (d +v l *v t, l) = dcons (D0 +v E) (d, 0) + l * dcons (D0 +v E) (t, 1)).
      { unfold dconsOf. destruct k; [congruence| |congruence|]; cbn; autorewrite with dot; ring. }
      assert (E1 : p_mul p m (d +v l *v t) -v l *v p_F p = vopp r) by (rewrite (lin_add _ LM), (lin_scale _ LM), Md, Mt; vring).
      assert (E2 : dcons (D0 +v E) (d +v l *v t, l) = - cons (D0 +v E)) by (rewrite LI; unfold l; field; exact NZ).
      cbn [fst snd]. 
      destruct k eqn:EK2; [congruence| |congruence|].
      + (* Riks *)
        assert (Q : rdiv (- (s_phi sc * dot (s_U sc +v s_DU sc -v s_U sc) (s_U sc +v s_DU sc -v s_U sc) + (1 - s_phi sc) * ((s_L sc + s_DL sc - s_L sc) * (s_L sc + s_DL sc - s_L sc)) - s_len sc * s_len sc + 2 * s_phi sc * dot (s_DU sc) (s_dUbar sc)))
          (2 * (1 - s_phi sc) * s_DL sc + 2 * s_phi sc * dot (s_DU sc) (s_dUt sc)) = Some l).
        { replace (s_U sc +v s_DU sc -v s_U sc) with (s_DU sc) by vring. replace (s_L sc + s_DL sc - s_L sc) with (s_DL sc) by ring. rewrite X1, X2, X3, X4, X5, Dc.
          assert (DE : 2 * (1 - phi) * snd (D0 +v E) + 2 * phi * dot (fst (D0 +v E)) t = dconsOf p Riks phi (D0 +v E) (t, 1)) by (cbn; ring).
          unfold rdiv. rewrite DE, (proj2 (Reqb_false _ _) NZ). f_equal. unfold l. f_equal. cbn. ring. }
        eexists. split; [exact E1|]. split; [exact E2|]. split; [exact QN|]. split; [unfold iteration; rewrite Rc; cbn [obind]; rewrite Q; reflexivity|].
        unfold keep3, keep2, keep1. cbn. split; [congruence|]. split; [congruence|]. rewrite X5, Dc. cbn in X1, X2. split; [rewrite X1; vring|]. split; [rewrite X2; ring|]. split; [reflexivity|discriminate].
      + (* consistent Crisfield *)
        assert (Q : rdiv (- (dot (s_DU sc) (s_DU sc) + s_phi sc * s_phi sc * s_DL sc * s_DL sc * dot (p_F p) (p_F p) - s_len sc * s_len sc + dot (2 *v s_DU sc) (s_dUbar sc)))
          (dot (2 *v s_DU sc) (s_dUt sc) + s_phi sc * s_phi sc * 2 * s_DL sc * dot (p_F p) (p_F p)) = Some l).
        { rewrite X1, X2, X3, X4, X5, Dc.
          assert (DE : dot (2 *v fst (D0 +v E)) t + phi * phi * 2 * snd (D0 +v E) * dot (p_F p) (p_F p) = dconsOf p ConsistentCrisfield phi (D0 +v E) (t, 1)) by (cbn; autorewrite with dot; ring).
          unfold rdiv. rewrite DE, (proj2 (Reqb_false _ _) NZ). f_equal. unfold l. f_equal. cbn. autorewrite with dot. ring. }
        eexists. split; [exact E1|]. split; [exact E2|]. split; [exact QN|]. split; [unfold iteration; rewrite Rc; cbn [obind]; rewrite Q; reflexivity|].
        unfold keep3, keep2, keep1. cbn. split; [congruence|]. split; [congruence|]. rewrite X5, Dc. cbn in X1, X2. split; [rewrite X1; vring|]. split; [rewrite X2; ring|]. split; [vring|discriminate]. }
  destruct IT as (e & s1 & s2 & E1 & E2 & R1 & R2 & K2 & J2 & Q). exists e, s1, s2, m.
  split. { pose proof (BD e) as B. eapply Rle_trans; [exact B|]. apply Req_le. f_equal. f_equal. unfold almRes. exact (f_equal2 pair E1 E2). }
  split; [|auto 9].
  intros BN. specialize (TY e). replace (D0 +v E +v e -v D0) with (E +v e) in TY by vring. specialize (TY BN).
  assert (A : D0 +v (E +v e) = D0 +v E +v e) by vring.
  unfold almRes. rewrite A. eapply Rle_trans; [apply norm_pair|]. rewrite norm_opp, Rabs_Ropp, Rmult_plus_distr_r. apply Rplus_le_compat.
  - match type of TY with norm (_ -v ?y) <= _ => replace y with (v0 : S) in TY end.
    2:{ fold r. transitivity (r +v (p_mul p m (fst e) -v snd e *v p_F p)); [rewrite E1; vring|vring]. }
    match type of TY with norm ?y <= _ => match goal with |- norm ?z <= _ => replace z with y by vring end end. exact TY.
  - pose proof (cons_taylor (D0 +v E) e) as T. rewrite E2 in T. replace (cons (D0 +v E) + - cons (D0 +v E)) with 0 in T by ring. rewrite Rminus_0_r in T. exact T.
Qed.
(** one pass of the loop *)
Lemma alm_body n i (E : SR) s : (1 <= i)%nat -> at_ E s -> norm E <= rho -> exists e : SR, norm e <= beta * norm (almRes E) /\
  (norm (E +v e) <= rho -> norm (almRes (E +v e)) <= (gamma + curv) * (norm e * norm e)) /\
  (norm (E +v e) <= rho -> exists s', at_ (E +v e) s' /\ s_numIt s' = i /\
    s_resF s' = rdiv (norm (s_resVec s')) bF /\ s_resU s' = rdiv (norm (fst e)) bU /\
    stepLoop p o k (Datatypes.S n) i s = if convergedTest o s' then
      (let s := iterationFinish o k s' in if s_adaptive s then computeLength s else Ret tt (set_lenPrev (s_len s) s))
    else match n with O => Exc (EThrow 1) s' | _ => stepLoop p o k n (Datatypes.S i) s' end).
Proof.
  intros Hi AT BE. assert (AT0 : at_ E (set_numIt i s)) by (destruct AT; constructor; assumption).
  assert (N0 : s_numIt (set_numIt i s) = i) by reflexivity. remember (set_numIt i s) as sN eqn:EN.
  destruct (iter_run E _ AT0 BE) as (e & s1 & s2 & m & NE & TY & R1 & R2 & K2 & J2 & DU2 & DL2 & dU2 & LC). exists e. split; [exact NE|]. split; [exact TY|]. intros BN.
  destruct (stab_run p o m s2 SR0 J2) as (s3 & R3 & J3). pose proof (keepOk keep4 _ s2 _ _ (computeStability_keep p o false s2) R3) as K3.
  pose proof (keep43 _ _ K3) as K33. rewrite K2 in K33. injection K33 as. injection K3 as.
  assert (RS : p_residual p (s_U s3 +v s_DU s3) (s_L s3 + s_DL s3) = Some (res (U +v fst (D0 +v (E +v e))) (L + snd (D0 +v (E +v e))))).
  { replace (s_U s3) with U by (rewrite <- (at_U _ _ AT0); congruence). replace (s_L s3) with L by (rewrite <- (at_L _ _ AT0); congruence).
    replace (s_DU s3) with (fst (D0 +v (E +v e))) by congruence. replace (s_DL s3) with (snd (D0 +v (E +v e))) by congruence. apply (ra_res _ _ _ _ _ _ _ _ _ _ RG). exact (alm_ball _ BN). }
  destruct (res_run p _ s3 RS) as (s4 & R4 & K4 & V4 & J4). pose proof K4 as K4'. injection K4 as.
  assert (N4 : s_numIt s4 = i) by congruence.
  set (s5 := computeResidualNorms p s4). assert (K5 : keep4 s5 = keep4 s4) by (apply norms_keep3; lia).
  assert (V5 : s_resVec s5 = s_resVec s4 /\ s_resF s5 = rdiv (norm (s_resVec s4)) (s_basF s4) /\ s_resU s5 = rdiv (norm (s_dU s4)) (s_basU s4) /\ s_jac s5 = s_jac s4).
  { unfold s5, computeResidualNorms. rewrite N4. destruct i; [lia|]. cbn. auto. }
  destruct V5 as (V5 & F5 & U5 & J5).
  assert (VB : exists s6, (if o_verbose o then stepOutput p o s5 else Ret tt s5) = Ret tt s6 /\ keep4 s6 = keep4 s5 /\ keepR s6 = keepR s5).
  { destruct (o_verbose o); [|exists s5; auto]. destruct (stab_run p o m s5 SR0 ltac:(congruence)) as (s6 & R6 & _). exists s6. split; [exact R6|].
    split; [eapply keepOk; [apply computeStability_keep|exact R6]|eapply keepOk; [apply computeStability_keepR|exact R6]]. }
  destruct VB as (s6 & R6 & K6 & KR). assert (K64 : keep4 s6 = keep4 s4) by congruence. clear K5 K6. injection K64 as. injection KR as.
  exists s6. split; [|split; [congruence|split; [|split]]].
  - pose proof (at_U _ _ AT0). pose proof (at_L _ _ AT0). pose proof (at_len _ _ AT0). pose proof (at_phi _ _ AT0). pose proof (at_bF _ _ AT0). pose proof (at_bU _ _ AT0).
    constructor; try congruence. intros KL. pose proof (at_lc _ _ AT0 KL) as Z1. pose proof (LC KL) as Z2. clear - Z1 Z2. destruct E, e. cbn in *. lra.
  - pose proof (at_bF _ _ AT0). congruence.
  - pose proof (at_bU _ _ AT0). congruence.
  - rewrite stepLoop_S. cbv zeta. rewrite <- EN. unfold newJacobian. rewrite HQ. cbn [negb orb]. rewrite R1. cbn [obind]. rewrite R2. cbn [obind]. rewrite R3. cbn [obind]. rewrite R4. cbn [obind]. fold s5. rewrite R6. cbn [obind]. reflexivity.
Qed.
Lemma finish_run s : (1 <= s_numIt s)%nat -> exists s', (let s := iterationFinish o k s in if s_adaptive s then computeLength s else Ret tt (set_lenPrev (s_len s) s)) = Ret tt s' /\
  s_U s' = s_U s +v s_DU s /\ s_L s' = s_L s + s_DL s /\ s_numIt s' = s_numIt s /\ s_conv s' = true.
Proof.
  intros N. cbv zeta. assert (F : let z := iterationFinish o k s in s_U z = s_U s +v s_DU s /\ s_L z = s_L s + s_DL s /\ s_numIt z = s_numIt s /\ s_conv z = true).
  { unfold iterationFinish. destruct k, (o_angle o); repeat split; reflexivity. }
  cbv zeta in F. destruct F as (F1 & F2 & F3 & F4). set (z := iterationFinish o k s) in *. destruct (s_adaptive z).
  - unfold computeLength. rewrite F3. destruct (s_numIt s) eqn:E; [lia|]. cbn [Nat.eqb]. eexists. split; [reflexivity|]. cbn. rewrite F1, F2, F3, F4. auto.
  - eexists. split; [reflexivity|]. cbn. auto.
Qed.
Section Loop.
Variables (x0 : SR) (h r0 : R).
Notation nr := (near almRes x0 (gamma + curv) h).
Hypothesis Hh : beta * (gamma + curv) * norm x0 <= h <= 1/4.
Hypothesis Hrho : 4/3 * norm x0 <= rho.
Hypothesis R0 : 0 <= r0. Hypothesis R1 : norm x0 <= beta * r0.
Lemma alm_test i (E e : SR) s : 0 < bF -> 0 < bU -> nr i E e -> at_ E s -> s_resF s = rdiv (norm (s_resVec s)) bF -> s_resU s = rdiv (norm (fst e)) bU ->
  h ^ (2 ^ i - 1) * norm x0 < o_tolU o * bU -> h ^ (2 ^ Datatypes.S i - 1) * r0 < o_tolF o * bF -> convergedTest o s = true.
Proof.
  intros PF PU NR AT EF EU TU TF. unfold convergedTest. rewrite EF, EU. unfold rdiv. rewrite !(proj2 (Reqb_false _ _)) by lra. cbn [oltb].
  assert (A : norm (s_resVec s) <= h ^ (2 ^ Datatypes.S i - 1) * r0).
  { pose proof (near_res almRes x0 beta _ h Hb gc_pos Hh i E e r0 R0 R1 NR) as Q. rewrite (at_res _ _ AT). pose proof (norm_1 (almRes E)) as Q1. cbn [fst almRes] in Q1. rewrite norm_opp in Q1. lra. }
  assert (B : norm (fst e) <= h ^ (2 ^ i - 1) * norm x0) by (pose proof (norm_1 e); pose proof (proj1 NR); lra).
  apply andb_true_iff. split; apply Rltb_true.
  - apply (Rmult_lt_reg_r bF); [exact PF|]. unfold Rdiv. rewrite Rmult_assoc, Rinv_l, Rmult_1_r by lra. lra.
  - apply (Rmult_lt_reg_r bU); [exact PU|]. unfold Rdiv. rewrite Rmult_assoc, Rinv_l, Rmult_1_r by lra. lra.
Qed.
(** from after pass number i (the first is number 0) on, with n more passes allowed *)
Lemma alm_loop N : 0 < bF -> 0 < bU -> h ^ (2 ^ (N - 1) - 1) * norm x0 < o_tolU o * bU -> h ^ (2 ^ N - 1) * r0 < o_tolF o * bF ->
  forall n i (E e : SR) s, nr i E e -> at_ E s -> (i < N - 1)%nat -> (N <= Datatypes.S i + n)%nat ->
  exists s' j E' e', stepLoop p o k n (i + 2) s = Ret tt s' /\ (j < N)%nat /\ s_numIt s' = Datatypes.S j /\ nr j E' e' /\
    s_U s' = U +v fst (D0 +v E') /\ s_L s' = L + snd (D0 +v E') /\ s_conv s' = true.
Proof.
  intros PF PU TU TF n. induction n as [|n IH]; intros i E e s NR AT Hi Hn; [lia|].
  pose proof (near_ball _ _ _ _ _ _ _ NR) as BE.
  destruct (alm_body n (i + 2) E s ltac:(lia) AT ltac:(lra)) as (d & ND & TY & RUN).
  pose proof (near_next almRes x0 beta _ h Hb gc_pos Hh i E e d NR ND (fun H => TY ltac:(lra))) as NR'.
  pose proof (near_ball _ _ _ _ _ _ _ NR') as BN. destruct (RUN ltac:(lra)) as (s1 & AT1 & N1 & F1 & U1 & EQ). rewrite EQ.
  destruct (convergedTest o s1) eqn:T.
  - destruct (finish_run s1 ltac:(lia)) as (s' & ES & A1 & A2 & A3 & A4). exists s', (Datatypes.S i), (E +v d), d. split; [exact ES|]. split; [lia|]. split; [lia|]. split; [exact NR'|].
    rewrite A1, A2, (at_U _ _ AT1), (at_L _ _ AT1), (at_DU _ _ AT1), (at_DL _ _ AT1). auto.
  - destruct (Nat.eq_dec (Datatypes.S i) (N - 1)) as [EN|NN].
    + exfalso. rewrite (alm_test (Datatypes.S i) _ _ s1 PF PU NR' AT1 F1 U1) in T; [discriminate|rewrite EN; exact TU|]. replace (Datatypes.S (Datatypes.S i)) with N by lia. exact TF.
    + destruct n as [|n]; [lia|]. exact (IH (Datatypes.S i) _ _ s1 NR' AT1 ltac:(lia) ltac:(lia)).
Qed.
End Loop.
(** the loop, started at the predicted increments *)
Lemma alm_first N n h s : 0 < bF -> 0 < bU -> let r0 := norm (almRes v0) in
  beta * (gamma + curv) * (beta * r0) <= h <= 1/4 -> 4/3 * (beta * r0) <= rho ->
  h ^ (2 ^ (N - 1) - 1) * (beta * r0) < o_tolU o * bU -> h ^ (2 ^ N - 1) * r0 < o_tolF o * bF ->
  at_ v0 s -> (1 <= N <= n)%nat ->
  exists s' j E', stepLoop p o k n 1 s = Ret tt s' /\ (j < N)%nat /\ s_numIt s' = Datatypes.S j /\ norm E' <= 4/3 * (beta * r0) /\
    norm (almRes E') <= h ^ (2 ^ Datatypes.S j - 1) * r0 /\
    s_U s' = U +v fst (D0 +v E') /\ s_L s' = L + snd (D0 +v E') /\ s_conv s' = true.
Proof.
  intros PF PU r0 Hh Hr TU TF AT HN. pose proof (norm_pos (almRes v0)) as R0. fold r0 in R0. pose proof (Rmult_le_pos _ _ Hb R0) as X0.
  destruct n as [|n]; [lia|]. destruct (alm_body n 1 v0 s ltac:(lia) AT ltac:(rewrite (norm_0 (S := SR)); lra)) as (e & NE & TY & RUN). fold r0 in NE.
  pose proof gc_pos as GC. assert (BG : 0 <= beta * (gamma + curv)) by (apply Rmult_le_pos; assumption).
  assert (Hh' : beta * (gamma + curv) * norm e <= h <= 1/4) by (split; [eapply Rle_trans; [apply Rmult_le_compat_l; [exact BG|exact NE]|]; apply Hh|apply Hh]).
  assert (Hr' : 4/3 * norm e <= rho) by lra. assert (E0 : v0 +v e = e) by vring. rewrite E0 in TY, RUN. pose proof (norm_pos e) as P0.
  assert (NR : near almRes e (gamma + curv) h 0 e e) by (apply near_first; apply TY; lra).
  destruct (RUN ltac:(lra)) as (s1 & AT1 & N1 & F1 & U1 & EQ).
  assert (H0 : 0 <= h) by (pose proof (Rmult_le_pos _ _ BG P0); lra). pose proof (pow_le h (2 ^ (N - 1) - 1) H0) as PH.
  assert (TU' : h ^ (2 ^ (N - 1) - 1) * norm e < o_tolU o * bU) by (eapply Rle_lt_trans; [apply Rmult_le_compat_l; [exact PH|exact NE]|exact TU]).
  assert (FIN : forall j (E' e' : SR), near almRes e (gamma + curv) h j E' e' -> norm E' <= 4/3 * (beta * r0) /\ norm (almRes E') <= h ^ (2 ^ Datatypes.S j - 1) * r0).
  { intros j E' e' Q. pose proof (near_ball _ _ _ _ _ _ _ Q). split; [lra|]. exact (near_res almRes e beta _ h Hb GC Hh' j E' e' r0 R0 NE Q). }
  rewrite EQ. destruct (convergedTest o s1) eqn:T.
  - destruct (finish_run s1 ltac:(lia)) as (s' & ES & A1 & A2 & A3 & A4). exists s', 0%nat, e. destruct (FIN _ _ _ NR). split; [exact ES|]. split; [lia|]. split; [lia|]. split; [assumption|]. split; [assumption|].
    rewrite A1, A2, (at_U _ _ AT1), (at_L _ _ AT1), (at_DU _ _ AT1), (at_DL _ _ AT1). auto.
  - destruct (Nat.eq_dec N 1) as [EN|NN].
    + exfalso. subst N. rewrite (alm_test e h r0 Hh' R0 NE 0 _ _ s1 PF PU NR AT1 F1 U1) in T; [discriminate|exact TU'|exact TF].
    + destruct n as [|n]; [lia|]. destruct (alm_loop e h r0 Hh' Hr' R0 NE N PF PU TU' TF (Datatypes.S n) 0 _ _ s1 NR AT1 ltac:(lia) ltac:(lia)) as (s' & j & E' & e' & A1 & A2 & A3 & A4 & A5).
      exists s', j, E'. destruct (FIN _ _ _ A4). repeat (split; [assumption|]). assumption.
Qed.
End Conv.

(** C112: near the predicted point, a step succeeds with quadratically decreasing defects. *)
Theorem C112_converges {S : VS} {Mat : Type} (p : problem S Mat) (o : opts) (k : kind) (res : S -> R -> S) (s sP : st S Mat) (N : nat) (beta gamma rho h : R) :
  k <> Crisfield -> o_quasi o = false -> stabReady p o -> s_initialized s = true ->
  (* the predictor succeeds, with the increments D0 *)
  predict p o k (started k s) = Ret tt sP ->
  let D0 := (s_DU sP, s_DL sP) : VS_prod S VS_R in
  let cons := consOf p k (s_phi sP) (s_len s) (s_DL sP) in
  let bF := norm ((s_L s + s_DL sP) *v p_F p) in let bU := norm (s_DU sP) in
  0 < bF -> 0 < bU ->
  (* near which the equations are regular *)
  0 <= beta -> 0 <= gamma -> regularALM p k res (s_U s) (s_L s) D0 (s_phi sP) rho beta gamma ->
  (* and which misses them by little *)
  let r0 := norm ((res (s_U s +v s_DU sP) (s_L s + s_DL sP), cons D0) : VS_prod S VS_R) in
  beta * (gamma + curvOf p k (s_phi sP)) * (beta * r0) <= h <= 1/4 -> 4/3 * (beta * r0) <= rho ->
  (* the tolerances are met by the N-th pass at the latest *)
  (1 <= N <= o_maxIt o - 1)%nat ->
  h ^ (2 ^ (N - 1) - 1) * (beta * r0) < o_tolU o * bU -> h ^ (2 ^ N - 1) * r0 < o_tolF o * bF ->
  exists s', step p o k s = Ret tt s' /\ s_stat s' = Success /\ s_conv s' = true /\ (1 <= s_numIt s' <= N)%nat /\
    let D := (s_U s' -v s_U s, s_L s' - s_L s) : VS_prod S VS_R in
    norm (D -v D0) <= 4/3 * (beta * r0) /\
    norm ((res (s_U s') (s_L s'), cons D) : VS_prod S VS_R) <= h ^ (2 ^ s_numIt s' - 1) * r0.
Proof.
  intros HK HQ SR0 HI EP D0 cons bF bU PF PU Hb Hg RG r0 Hh Hr HN TU TF.
  pose proof (keepOk keep2 _ _ _ _ (predict_keep p o k (started k s)) EP) as KP.
  assert (K0 : keep1 (started k s) = keep1 s /\ s_numIt (started k s) = 0%nat) by (destruct k; split; reflexivity). destruct K0 as [K0 N0].
  assert (HP : s_U sP = s_U s /\ s_L sP = s_L s /\ s_len sP = s_len s /\ s_numIt sP = 0%nat).
  { remember (started k s) as s0. injection KP as. injection K0 as. repeat split; congruence. }
  destruct HP as (PU1 & PL1 & PN1 & PI1). clear KP K0 N0.
  assert (P0 : norm ((D0 : VS_prod S VS_R) -v D0) <= rho).
  { replace ((D0 : VS_prod S VS_R) -v D0) with (v0 : VS_prod S VS_R) by (unfold D0; vring). rewrite (norm_0 (S := VS_prod S VS_R)).
    eapply Rle_trans; [|exact Hr]. apply Rmult_le_pos; [lra|]. apply Rmult_le_pos; [exact Hb|apply norm_pos]. }
  pose proof (ra_res _ _ _ _ _ _ _ _ _ _ RG D0 P0) as RS. cbn [fst snd D0] in RS.
  rewrite <- PU1, <- PL1 in RS. destruct (res_run p _ sP RS) as (s1 & R1 & K1 & V1 & J1). rewrite PU1, PL1 in V1.
  injection K1 as. set (s2 := computeResidualNorms p s1).
  assert (Q2 : s_U s2 = s_U s /\ s_L s2 = s_L s /\ s_len s2 = s_len s /\ s_phi s2 = s_phi sP /\ s_DU s2 = s_DU sP /\ s_DL s2 = s_DL sP /\ s_resVec s2 = s_resVec s1 /\ s_basF s2 = bF /\ s_basU s2 = bU /\ s_jac s2 = s_jac sP).
  { unfold s2, computeResidualNorms. replace (s_numIt s1) with 0%nat by congruence. cbn. unfold bF, bU. repeat split; congruence. }
  destruct Q2 as (A1 & A2 & A3 & A4 & A5 & A6 & A7 & A8 & A9 & A10).
  assert (VB : exists s3, (if o_verbose o then stepOutput p o s2 else Ret tt s2) = Ret tt s3 /\ keep4 s3 = keep4 s2 /\ keepR s3 = keepR s2).
  { destruct (o_verbose o); [|exists s2; auto]. pose proof (predict_jac p o k _ _ HK EP) as JP. destruct (s_jac sP) as [m|]; [|congruence].
    destruct (stab_run p o m s2 SR0 A10) as (s3 & R3 & _). exists s3. split; [exact R3|].
    split; [eapply keepOk; [apply computeStability_keep|exact R3]|eapply keepOk; [apply computeStability_keepR|exact R3]]. }
  destruct VB as (s3 & R3 & K3 & KR). injection K3 as. injection KR as.
  assert (AT : at_ k res (s_U s) (s_L s) D0 (s_phi sP) (s_len s) bF bU v0 (set_stabPrev (s_stab s3) s3)).
  { constructor; cbn; try congruence.
    - unfold D0. cbn. transitivity (s_DU sP); [congruence|vring].
    - unfold D0. cbn. transitivity (s_DL sP); [congruence|ring].
    - unfold D0. cbn. transitivity (res (s_U s +v s_DU sP) (s_L s + s_DL sP)); [congruence|]. f_equal; [vring|ring]. }
  assert (ER : norm (almRes p k res (s_U s) (s_L s) D0 (s_phi sP) (s_len s) v0) = r0).
  { unfold r0, almRes, cons. rewrite <- (norm_opp (S := VS_prod S VS_R)). f_equal. replace (D0 +v (v0 : VS_prod S VS_R)) with (D0 : VS_prod S VS_R) by (unfold D0; vring). unfold D0. cbn.
    f_equal; [vring|ring]. }
  destruct (alm_first p o k res (s_U s) (s_L s) D0 (s_phi sP) (s_len s) beta gamma rho bF bU HK Hb Hg RG SR0 HQ N (o_maxIt o - 1) h _ PF PU
    ltac:(rewrite ER; exact Hh) ltac:(rewrite ER; exact Hr) ltac:(rewrite ER; exact TU) ltac:(rewrite ER; exact TF) AT HN) as (s' & j & E & RL & Hj & NI & BE & BR & EU & EL & EC).
  rewrite ER in BE, BR. exists (set_stat Success s'). split.
  { unfold step, step_. rewrite HI. cbn [negb]. fold (started k s). rewrite EP. cbn [obind]. rewrite R1. cbn [obind]. fold s2. rewrite R3. cbn [obind]. rewrite HQ. cbn [obind]. rewrite RL. reflexivity. }
  split; [reflexivity|]. split; [exact EC|]. split; [cbn; lia|]. cbn [s_U s_L s_numIt set_stat]. rewrite NI, EU, EL.
  assert (ED : (s_U s +v fst ((D0 : VS_prod S VS_R) +v E) -v s_U s, s_L s + snd ((D0 : VS_prod S VS_R) +v E) - s_L s) = (D0 : VS_prod S VS_R) +v E).
  { unfold D0. destruct E. cbn. f_equal; [vring|ring]. }
  cbv zeta. split.
  - rewrite ED. replace ((D0 : VS_prod S VS_R) +v E -v D0) with E by vring. exact BE.
  - rewrite ED. eapply Rle_trans; [|exact BR]. apply Req_le. rewrite <- (norm_opp (S := VS_prod S VS_R)). f_equal. unfold almRes, cons. cbn. f_equal. ring.
Qed.
Print Assumptions C112_converges.

(** A hardening spring u + u^2/100 = L, one Riks step of length 1 from the origin: the predicted
    point is (1, 1), with the residual 1/100; beta = 4, gamma = 1/100, h < 1/5, and two passes are
    enough for the tolerances 1/100. *)
Definition hardSpring : problem VS_R R := @mkProblem VS_R R
  (fun u l => Some (u + u * u / 100 - l)) (fun u _ => Some (1 + u / 50)) (fun m => negb (Reqb m 0))
  (fun m f => Some (f / m)) (fun m x => m * x) (fun m => [m]) (fun m => Some [m]) 1 1 1.
Example C112_example : exists s', step hardSpring (exOpts 5) Riks (exSt VS_R R 1) = Ret tt s' /\ s_stat s' = Success /\ (1 <= s_numIt s' <= 2)%nat /\
  Rabs (s_U s' - 1) <= 4/75 /\ Rabs (s_U s' + s_U s' * s_U s' / 100 - s_L s') <= 1/500.
Proof.
  set (phi := 99999999999 / 100000000000).
  assert (EP : exists sP, predict hardSpring (exOpts 5) Riks (started Riks (exSt VS_R R 1)) = Ret tt sP /\ s_DU sP = 1 /\ s_DL sP = 1 /\ s_phi sP = phi).
  { eexists. split; [ev|]. unfold phi. rcbv. replace (1 / (1 + 0 / 50) * (1 / (1 + 0 / 50)) + 0 * 1) with 1 by field. rewrite ?sqrt_1. repeat split; field. }
  destruct EP as (sP & EP & DU & DL & PH).
  set (D0 := (1, 1) : VS_prod VS_R VS_R).
  assert (IB : forall D : VS_prod VS_R VS_R, norm (D -v D0) <= 4/75 -> 71/75 <= fst D <= 79/75 /\ 71/75 <= snd D <= 79/75).
  { intros D H. pose proof (norm_1 (S := VS_R) (D -v D0)) as H1. pose proof (norm_2 (S := VS_R) (D -v D0)) as H2. rewrite norm_R in H1.
    pose proof (Rle_trans _ _ _ H1 H) as A1. pose proof (Rle_trans _ _ _ H2 H) as A2. clear H H1 H2. destruct D as [a b]. cbn in A1, A2.
    apply Rabs_both in A1. apply Rabs_both in A2. cbn. lra. }
  assert (RG : regularALM hardSpring Riks (fun u l => u + u * u / 100 - l : VS_R) (0 : VS_R) 0 D0 phi (4/75) 4 (1/100)).
  { split.
    - reflexivity.
    - intros [a b] du HD. destruct (IB _ HD) as [Ia Ib]. cbn [fst snd] in Ia, Ib. exists (1 + a / 50).
      split; [cbn; do 2 f_equal; field|]. split; [cbn; rewrite (proj2 (Reqb_false _ _)) by lra; reflexivity|]. split; [split; intros; cbn; ring|].
      split; [intros f; exists (f / (1 + a / 50)); split; [reflexivity|cbn; field; lra]|].
      clear IB HD. split.
      + intros [x y]. change R in x, y. cbn [fst snd]. match goal with |- _ <= 4 * norm ?z => pose proof (norm_1 (S := VS_R) z) as H1; pose proof (norm_2 (S := VS_R) z) as H2; set (n := @norm (VS_prod VS_R VS_R) z) in * end.
        eapply Rle_trans; [apply (norm_pair (S := VS_R))|]. rewrite norm_R in *. cbn in H1, H2.
        match type of H1 with Rabs ?z <= _ => set (y1 := z) in * end. match type of H2 with Rabs ?z <= _ => set (y2 := z) in * end.
        set (c := 2 * (1 - phi) * b) in *. assert (Hc : 0 <= c <= 1/1000) by (unfold c, phi; lra).
        set (d := 2 * phi * a + c * (1 + a / 50)). assert (Hd : 17/10 <= d) by (unfold d; assert (0 <= c * (1 + a / 50)) by (apply Rmult_le_pos; lra); unfold phi; lra).
        assert (X : x * d = y2 + c * y1) by (unfold d, y1, y2, c; ring). assert (Y : y = (1 + a / 50) * x - y1) by (unfold y1; ring).
        assert (B1 : Rabs x * (17/10) <= n + 1/1000 * n).
        { eapply Rle_trans with (Rabs (x * d)).
          - rewrite Rabs_mult, (Rabs_pos_eq d) by lra. apply Rmult_le_compat_l; [apply Rabs_pos|exact Hd].
          - rewrite X. eapply Rle_trans; [apply Rabs_triang|]. apply Rplus_le_compat; [exact H2|]. rewrite Rabs_mult, (Rabs_pos_eq c) by lra. apply Rmult_le_compat; [lra|apply Rabs_pos|lra|exact H1]. }
        assert (B2 : Rabs y <= 11/10 * Rabs x + n).
        { rewrite Y. eapply Rle_trans; [apply Rabs_triang|]. rewrite Rabs_Ropp. apply Rplus_le_compat; [|exact H1]. rewrite Rabs_mult, (Rabs_pos_eq (1 + a/50)) by lra. apply Rmult_le_compat_r; [apply Rabs_pos|lra]. }
        pose proof (Rabs_pos y1). lra.
      + intros [x y] HX. rewrite norm_R. cbn [fst snd]. pose proof (norm_1 (S := VS_R) (x, y)) as H1. rewrite norm_R in H1. cbn [fst] in H1. set (n := norm ((x, y) : VS_prod VS_R VS_R)) in *.
        match goal with |- Rabs ?z <= _ => replace z with (1/100 * (x * x)) by (cbn; field) end. rewrite Rabs_mult, (Rabs_pos_eq (1/100)) by lra. apply Rmult_le_compat_l; [lra|]. rewrite Rabs_mult. apply Rmult_le_compat; auto using Rabs_pos. }
  assert (R0 : norm (((1/100), 0) : VS_prod VS_R VS_R) = 1/100).
  { unfold norm. cbn. replace (1 / 100 * (1 / 100) + 0 * 0) with ((1/100) * (1/100)) by ring. apply sqrt_square. lra. }
  assert (CU : curvOf hardSpring Riks phi = 1) by (cbn; unfold phi; rewrite !Rabs_pos_eq by lra; lra).
  destruct (C112_converges hardSpring (exOpts 5) Riks (fun u l => u + u * u / 100 - l : VS_R) (exSt VS_R R 1) sP 2 4 (1/100) (4/75) (1/5)) as (s' & E & ST & CV & NI & BD & BR);
    try rewrite DU; try rewrite DL; try rewrite PH; try rewrite CU.
  - discriminate.
  - reflexivity.
  - split; [discriminate|discriminate|discriminate|intros m l H; injection H as <-; discriminate].
  - reflexivity.
  - exact EP.
  - rewrite norm_R. cbn. rewrite Rabs_pos_eq by lra. lra.
  - rewrite norm_R, Rabs_pos_eq by lra. lra.
  - lra.
  - lra.
  - exact RG.
  - match goal with |- context [norm ?z] => replace (@norm (VS_prod VS_R VS_R) z) with (@norm (VS_prod VS_R VS_R) ((1/100), 0)) by (f_equal; cbn; unfold phi; f_equal; lra) end. rewrite R0. lra.
  - match goal with |- context [norm ?z] => replace (@norm (VS_prod VS_R VS_R) z) with (@norm (VS_prod VS_R VS_R) ((1/100), 0)) by (f_equal; cbn; unfold phi; f_equal; lra) end. rewrite R0. lra.
  - cbn. lia.
  - match goal with |- context [@norm (VS_prod VS_R VS_R) ?z] => replace (@norm (VS_prod VS_R VS_R) z) with (@norm (VS_prod VS_R VS_R) ((1/100), 0)) by (f_equal; cbn; unfold phi; f_equal; lra) end. rewrite R0, norm_R, (Rabs_pos_eq 1) by lra. cbn. lra.
  - match goal with |- context [@norm (VS_prod VS_R VS_R) ?z] => replace (@norm (VS_prod VS_R VS_R) z) with (@norm (VS_prod VS_R VS_R) ((1/100), 0)) by (f_equal; cbn; unfold phi; f_equal; lra) end. rewrite R0, norm_R. cbn. rewrite (Rabs_pos_eq ((0 + 1) * 1)) by lra. lra.
  - exists s'. split; [exact E|]. split; [exact ST|]. split; [exact NI|]. cbv zeta in BD, BR. rewrite DU, DL, PH in BD, BR.
    match type of BD with context [_ * (4 * norm ?z)] => replace (@norm (VS_prod VS_R VS_R) z) with (1/100) in BD by (rewrite <- R0; f_equal; cbn; unfold phi; f_equal; lra) end.
    match type of BR with _ <= _ * norm ?z => replace (@norm (VS_prod VS_R VS_R) z) with (1/100) in BR by (rewrite <- R0; f_equal; cbn; unfold phi; f_equal; lra) end.
    match type of BD with norm ?z <= _ => pose proof (norm_1 (S := VS_R) z) as H1 end. match type of BR with norm ?z <= _ => pose proof (norm_1 (S := VS_R) z) as H2 end.
    pose proof (Rle_trans _ _ _ H1 BD) as A1. pose proof (Rle_trans _ _ _ H2 BR) as A2. rewrite norm_R in A1, A2. cbn [fst] in A2. split.
    + eapply Rle_trans; [|eapply Rle_trans; [exact A1|]]; [apply Req_le; f_equal; cbn; ring|lra].
    + eapply Rle_trans; [exact A2|].
      assert (P : (1/5) ^ (2 ^ s_numIt s' - 1) <= 1/5).
      { destruct (s_numIt s') as [|n]; [lia|]. assert ((2 ^ Datatypes.S n - 1 = 1 + (2 ^ Datatypes.S n - 2))%nat) as -> by (cbn [Nat.pow]; pose proof (Nat.pow_nonzero 2 n ltac:(lia)); lia). rewrite pow_add, pow_1.
        pose proof (pow_incr (1/5) 1 (2 ^ Datatypes.S n - 2) ltac:(lra)) as I. rewrite pow1 in I. lra. }
      lra.
Qed.
