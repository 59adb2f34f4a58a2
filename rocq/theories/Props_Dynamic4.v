(** Properties of the time integrators: C54-C55. *)
From Verif Require Import VS Status RunTac Static StaticRun Dynamic DynRun Props_Dynamic.
Local Open Scope R_scope.

(** ** C54 *)
(** the answers of GMRES solve the system *)
Definition exactGmres {S : VS} (p : dprob S) : Prop := forall m b x, dp_gmres p m b = Some x -> m x = b.
(** A linear step that ends with finite vectors satisfies the implicit Euler equations with force,
    mass and damping at t + dt; the stiffness is the one assembled at t. *)
Theorem C54_linear {S : VS} (p : dprob S) t dt s q s' :
  linearProb p -> exactGmres p -> implicitEuler p t dt s = Done (Fin q) s' ->
  exists M C K F, dp_mass p (t + dt) = Yes M /\ dp_force p (t + dt) = Yes F /\
    dp_damp p (x_U s) (t + dt) = Yes C /\ dp_jac p (x_U s) t = Yes K /\
    x_U s' = x_U s +v dt *v x_V s' /\ M (x_V s' -v x_V s) = dt *v (F -v C (x_V s') -v K (x_U s')).
Proof.
  intros L G H. unfold implicitEuler in H. cbv zeta in H. asks H.
  match type of H with context [dp_gmres p ?m ?b] => destruct (dp_gmres p m b) as [x|] eqn:E end; [|discriminate].
  injection H as <- <-. do 4 eexists. do 4 (split; [eassumption || reflexivity|]). apply G in E. unfold euMat in E.
  assert (E1 := f_equal fst E). assert (E2 := f_equal snd E). cbn in E1, E2 |- *.
  match type of E2 with ?l = _ +v ?m ?v => assert (LM : linear m) by (eapply (lp_mass L); eassumption) end.
  split; [rewrite <- E1; vring|]. lin LM.
  match type of E2 with ?l = ?df +v ?m ?v => transitivity (m (snd x) -v ((df +v m v) -v df)); [vring|rewrite <- E2; vring] end.
Qed.
Print Assumptions C54_linear.
(** On a linear problem with constant matrices and force, the nonlinear variant with two iterations
    and positive tolerances gives the answer of the linear one. *)
Theorem C54_nonlinear_partial {S : VS} (p : dprob S) o M C K F t dt s :
  constOps p M C K -> linear M -> linear C -> linear K ->
  (forall t, dp_force p t = Yes F) -> (forall u t, dp_res p u t = Yes (F -v K u)) ->
  (forall x y, euMat dt M C K x = euMat dt M C K y -> x = y) ->
  (forall b, exists x, dp_gmres p (euMat dt M C K) b = Some x /\ euMat dt M C K x = b) ->
  (2 <= do_maxIt o)%nat -> 0 < do_tolU o -> 0 < do_tolF o -> (do_quasi o = true -> do_quasiIt o <> O) ->
  exists s' s2 q, implicitEuler p t dt s = Done (Fin Success) s' /\ implicitEulerNL p o t dt s = Done (Fin q) s2 /\ q = Success /\
    x_U s2 = x_U s' /\ x_V s2 = x_V s'.
Proof.
  intros CO LM LC LK HF HR I T Hm HtU HtF HQ.
  assert (LL : linear (euMat dt M C K)).
  { split; intros; unfold euMat; cbn; f_equal; rewrite ?(lin_add _ LM), ?(lin_add _ LC), ?(lin_add _ LK), ?(lin_scale _ LM), ?(lin_scale _ LC), ?(lin_scale _ LK); vring. }
  unfold implicitEuler, implicitEulerNL. cbv zeta. rewrite (co_mass _ _ _ _ CO), HF. cbn [ask rbind]. rewrite (co_damp _ _ _ _ CO), (co_jac _ _ _ _ CO), HR. cbn [ask rbind].
  destruct (T (x_U s, dt *v F +v M (x_V s))) as (X & EX & LX). rewrite EX. eexists.
  match goal with |- context [implicitLoop _ _ _ _ _ _ _ (if ?c then 1 else @norm ?SS ?b)] => set (r0 := if c then 1 else @norm SS b) end.
  assert (R0 : 0 < r0). { unfold r0. match goal with |- context [Reqb (@norm ?SS ?b) 0] => destruct (Reqb (@norm SS b) 0) eqn:E; [lra|apply Reqb_false in E; pose proof (@norm_pos SS b); lra] end. }
  clearbody r0.
  assert (BM : forall i, badMod o i = false).
  { intros i. unfold badMod. destruct (do_quasi o); [|reflexivity]. specialize (HQ eq_refl). destruct (i =? 0)%nat; [reflexivity|]. cbn. apply Nat.eqb_neq. exact HQ. }
  assert (IT : forall n i r s0 K', K' = K \/ i = O -> r = F -v K (x_U s0) ->
    exists d, dp_gmres p (euMat dt M C K) (vopp (@vsub (VS_prod S S) (euMat dt M C K (x_U s0, x_V s0)) (x_U s, dt *v F +v M (x_V s)))) = Some d /\
      @vadd (VS_prod S S) (x_U s0, x_V s0) d = X /\
      implicitLoop p o t dt M (x_U s) (x_V s) r0 (Datatypes.S n) i C K' r s0 =
      let rhs := @vsub (VS_prod S S) (euMat dt M C K (x_U s0, x_V s0)) (x_U s, dt *v F +v M (x_V s)) in
      let s1 := xU (fst X) (xV (snd X) s0) in
      if Rltb (if Reqb (norm X) 0 then norm d else norm d / norm X) (do_tolU o) && Rltb (norm rhs / r0) (do_tolF o) then Done (Fin Success) s1
      else implicitLoop p o t dt M (x_U s) (x_V s) r0 n (Datatypes.S i) C K (F -v K (fst X)) s1).
  { intros n i r s0 K' HK' ->. set (b := @vsub (VS_prod S S) (euMat dt M C K (x_U s0, x_V s0)) (x_U s, dt *v F +v M (x_V s))).
    destruct (T (vopp b)) as (d & Ed & Ld). exists d. split; [exact Ed|].
    assert (EXd : @vadd (VS_prod S S) (x_U s0, x_V s0) d = X).
    { apply I. rewrite (lin_add _ LL). rewrite Ld. rewrite LX. unfold b. vring. }
    split; [exact EXd|]. cbn [implicitLoop]. rewrite BM.
    assert (RB : (x_U s0 -v x_U s -v dt *v x_V s0, M (x_V s0 -v x_V s) +v dt *v C (x_V s0) +v dt *v vopp (F -v K (x_U s0))) = b).
    { unfold b, euMat. cbn. unfold vopp. f_equal; [vring|]. lin LM. vring. }
    destruct (renew o i) eqn:ER.
    - rewrite (co_damp _ _ _ _ CO). cbn [ask rbind]. rewrite (co_jac _ _ _ _ CO). cbn [ask rbind]. cbv zeta. rewrite RB. rewrite Ed, EXd, HR. reflexivity.
    - assert (K' = K). { destruct HK' as [->| ->]; [reflexivity|]. unfold renew in ER. cbn in ER. rewrite orb_true_r in ER. discriminate. } subst K'.
      cbn [ask rbind]. cbv zeta. rewrite RB. rewrite Ed, EXd, HR. reflexivity. }
  destruct (do_maxIt o) as [|[|n]] eqn:EN; [lia|lia|].
  destruct (IT (Datatypes.S n) O (F -v K (x_U s)) s (fun x => x) (or_intror eq_refl) eq_refl) as (d & _ & _ & E1). cbv zeta in E1. rewrite E1. clear E1.
  match goal with |- context [if ?c then Done (Fin Success) _ else _] => destruct c end.
  - eexists _, _. split; [reflexivity|]. split; [reflexivity|]. split; [reflexivity|]. split; reflexivity.
  - set (s1 := xU (fst X) (xV (snd X) s)).
    destruct (IT n 1%nat (F -v K (fst X)) s1 K (or_introl eq_refl) eq_refl) as (d2 & _ & D2 & E2). cbv zeta in E2. rewrite E2. clear E2.
    assert (XX : (x_U s1, x_V s1) = X) by (cbn; destruct X; reflexivity). rewrite XX in D2 |- *.
    assert (Z : d2 = v0). { transitivity ((X +v d2) -v X); [vring|]. rewrite D2. vring. } rewrite Z, LX.
    match goal with |- context [norm ?b / r0] => assert (ZB : b = v0) by vring; rewrite ZB end. rewrite !norm_v0.
    rewrite (proj2 (Rltb_true (0 / r0) (do_tolF o))) by (unfold Rdiv; rewrite Rmult_0_l; exact HtF).
    rewrite (proj2 (Rltb_true _ (do_tolU o))) by (destruct (Reqb _ 0); [exact HtU|unfold Rdiv; rewrite Rmult_0_l; exact HtU]).
    cbn [andb]. eexists _, _. split; [reflexivity|]. split; [reflexivity|]. split; [reflexivity|]. split; reflexivity.
Qed.
Print Assumptions C54_nonlinear_partial.
(** a GMRES that solves 2x2 systems exactly *)
Definition gmres2 (m : R * R -> R * R) (b : R * R) : option (R * R) :=
  let c1 := m (1, 0) in let c2 := m (0, 1) in let det := fst c1 * snd c2 - fst c2 * snd c1 in
  if Reqb det 0 then None else
  let x := ((snd c2 * fst b - fst c2 * snd b) / det, (fst c1 * snd b - snd c1 * fst b) / det) in
  if Reqb (fst (m x)) (fst b) && Reqb (snd (m x)) (snd b) then Some x else None.
(** the problem [osc] of Props_Dynamic, with this GMRES *)
Definition osc2 (m c k : R) (f : R -> R) : dprob VS_R :=
  let p := osc m c k f in mkDP (S := VS_R) (dp_mass p) (dp_damp p) (dp_jac p) (dp_force p) (dp_res p) (dp_const p) (dp_solve p) (dp_inv p) gmres2.
Lemma osc2_linear m c k f : linearProb (osc2 m c k f).
Proof. destruct (osc_linear m c k f). split; assumption. Qed.
Lemma osc2_gmres m c k f : exactGmres (osc2 m c k f).
Proof.
  intros A b x H. cbn in H. unfold gmres2 in H. destruct (Reqb _ 0); [discriminate|]. cbv zeta in H.
  match type of H with (if ?e then _ else _) = _ => destruct e eqn:E end; [|discriminate]. injection H as <-.
  apply andb_true_iff in E. destruct E as [E1 E2]. apply Reqb_true in E1, E2. cbn [fst snd] in E1, E2.
  match goal with |- ?l = ?r => destruct l, r end. cbn in *. congruence.
Qed.
Example C54_example : linearProb (osc2 1 1 4 (fun t => 5 * t)) /\ exactGmres (osc2 1 1 4 (fun t => 5 * t)) /\
  exists s, implicitEuler (osc2 1 1 4 (fun t => 5 * t)) 2 1 (mkX (S := VS_R) 1 2 0 None) = Done (Fin Success) s /\
  x_V s = 13/6 /\ x_U s = 19/6.
Proof. split; [apply osc2_linear|]. split; [apply osc2_gmres|]. eexists. split; [dev|]. split; rcbv; lra. Qed.
Example C54_nonlinear_example : exists s s2, let p := osc2 1 0 1 (fun t => 3/4) in
  implicitEuler p 0 (3/4) (mkX (S := VS_R) 0 0 0 None) = Done (Fin Success) s /\
  implicitEulerNL p (trap 1) 0 (3/4) (mkX (S := VS_R) 0 0 0 None) = Done (Fin Success) s2 /\
  x_V s = 9/25 /\ x_V s2 = 9/25 /\ x_U s2 = 27/100.
Proof. eexists _, _. cbv zeta. split; [dev|]. split; [dev|]. split; [rcbv; lra|]. split; rcbv; lra. Qed.
(** the hypotheses of C54_nonlinear_partial hold for it *)
Example C54_nonlinear_hyps dt m c k f b : m + dt * c + dt * dt * k <> 0 ->
  let A := euMat (S := VS_R) dt (fun x : VS_R => (m * x : VS_R)) (fun x : VS_R => (c * x : VS_R)) (fun x : VS_R => (k * x : VS_R)) in
  (exists x, dp_gmres (osc2 m c k f) A b = Some x /\ A x = b) /\ forall x y, A x = A y -> x = y.
Proof.
  intros Hd A.
  assert (DET : forall u v : R, A (u, v) = (u - dt * v, dt * (k * u) + (m * v + dt * (c * v)))).
  { intros. unfold A, euMat. cbn. f_equal; ring. }
  split.
  - set (D := m + dt * c + dt * dt * k) in *. destruct b as [b1 b2].
    eexists. split.
    + cbn [dp_gmres osc2]. unfold gmres2. cbv zeta. rewrite !DET. cbn [fst snd].
      rewrite (proj2 (Reqb_false _ 0)) by (intros E; apply Hd; unfold D; lra).
      rewrite (proj2 (Reqb_true _ b1)), (proj2 (Reqb_true _ b2)). cbn [andb]. reflexivity.
      * unfold D in Hd. field. lra.
      * unfold D in Hd. field. lra.
    + rewrite DET. unfold D in Hd. apply (f_equal2 (@pair R R)); cbn; field; lra.
  - intros [u1 v1] [u2 v2] E. rewrite !DET in E. injection E as E1 E2.
    assert (Z : (m + dt * c + dt * dt * k) * (v1 - v2) = 0). { replace u1 with (u2 - dt * v2 + dt * v1) in E2 by lra. lra. }
    apply Rmult_integral in Z. destruct Z as [Z|Z]; [contradiction|]. f_equal; [|lra]. replace v2 with v1 in E1 by lra. lra.
Qed.
(** Refuted: with a force that changes in time the nonlinear step returns Success with vectors that
    satisfy the equations with the force at the old time t: here the force at t + dt is 3/4, at t
    it is 0, and the body stays at rest. And the linear step returns Success although GMRES gave no
    finite answer. *)
Theorem C54_refuted :
  (exists s', implicitEulerNL (osc2 1 0 1 (fun t => t)) (trap 1) 0 (3/4) (mkX (S := VS_R) 0 0 0 None) = Done (Fin Success) s' /\
     x_U s' = 0 /\ x_V s' = 0 /\ 1 * (x_V s' - 0) <> 3/4 * (3/4 - 0 * x_V s' - 1 * x_U s')) /\
  (exists s', implicitEuler (osc2 0 0 0 (fun _ => 1)) 0 1 (mkX (S := VS_R) 0 0 0 None) = Done (NonFin Success) s').
Proof.
  split.
  - eexists. split; [dev|]. split; [rcbv; lra|]. split; [rcbv; lra|]. rcbv. lra.
  - eexists. dev.
Qed.
Print Assumptions C54_refuted.
