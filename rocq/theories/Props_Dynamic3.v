(** Properties of the time integrators: C52-C55. *)
From Verif Require Import VS Status RunTac Static StaticRun Dynamic DynRun Props_Dynamic.
Local Open Scope R_scope.

(** ** C52 *)
(** the first order system (u, v)' = (v, Minv (F - K u - C v)) *)
Definition rhsOf {S : VS} (Minv C K : S -> S) (F : S) (y : VS_prod S S) : VS_prod S S :=
  (snd y, Minv (F -v K (fst y) -v C (snd y))).
Notation "x ++v y" := (@vadd (VS_prod _ _) x y) (at level 50, left associativity).
Notation "a **v x" := (@vscale (VS_prod _ _) a x) (at level 40, left associativity).
(** One step with constant matrices and force gives the Taylor polynomial of degree four of the
    solution: y + h y' + h^2/2 y'' + h^3/6 y''' + h^4/24 y'''', where y' = f(y) and each further
    derivative is the linear part of f applied to the one before. The acceleration is not touched. *)
Theorem C52_taylor {S : VS} (p : dprob S) M C K F Minv t h s :
  constOps p M C K -> (forall t, dp_force p t = Yes F) -> x_inv s = None -> dp_inv p M = Some Minv ->
  linear Minv -> linear C -> linear K ->
  let y : VS_prod S S := (x_U s, x_V s) in
  let L := rhsOf Minv C K v0 in
  let y1 := rhsOf Minv C K F y in
  exists s', rk4 p t h s = Done (Fin Success) s' /\ x_A s' = x_A s /\
  ((x_U s', x_V s') : VS_prod S S) = y ++v h **v y1 ++v (h^2/2) **v L y1 ++v (h^3/6) **v L (L y1) ++v (h^4/24) **v L (L (L y1)).
Proof.
  intros CO HF HI HM LI LC LK y L y1. unfold rk4, massInverse. cbv zeta. rewrite (co_mass _ _ _ _ CO). cbn [ask rbind]. rewrite HI, HM.
  destruct (dp_const p); cbn [rbind]; rewrite (co_damp _ _ _ _ CO), (co_jac _ _ _ _ CO), !HF; cbn [ask rbind]; (eexists; split; [reflexivity|]; split; [reflexivity|]);
  unfold y1, L, y, rhsOf; cbn; f_equal; repeat first [progress lin LI | progress lin LC | progress lin LK]; vfield.
Qed.
Print Assumptions C52_taylor.
(** without force: (1 + hL + h^2 L^2/2 + h^3 L^3/6 + h^4 L^4/24) applied to the state *)
Corollary C52_polynomial {S : VS} (p : dprob S) M C K Minv t h s :
  constOps p M C K -> (forall t, dp_force p t = Yes v0) -> x_inv s = None -> dp_inv p M = Some Minv ->
  linear Minv -> linear C -> linear K ->
  let y : VS_prod S S := (x_U s, x_V s) in let L := rhsOf Minv C K v0 in
  exists s', rk4 p t h s = Done (Fin Success) s' /\
  ((x_U s', x_V s') : VS_prod S S) = y ++v h **v L y ++v (h^2/2) **v L (L y) ++v (h^3/6) **v L (L (L y)) ++v (h^4/24) **v L (L (L (L y))).
Proof.
  intros CO HF HI HM LI LC LK y L. destruct (C52_taylor p M C K v0 Minv t h s CO HF HI HM LI LC LK) as (s' & H1 & _ & H2). exists s'. split; [exact H1|exact H2].
Qed.
Print Assumptions C52_polynomial.
Example C52_example : exists s, rk4 (osc 2 0 4 (fun _ => 0)) 3 1 (mkX (S := VS_R) 1 0 9 None) = Done (Fin Success) s /\
  x_U s = 1/6 /\ x_V s = -4/3 /\ x_A s = 9.
Proof. eexists. split; [dev|]. rcbv. repeat split; lra. Qed.

(** ** C53 *)
(** The nonlinear variant: without residual and damping, from zero acceleration, the displacement
    moves by dt times the velocity, which stays. *)
Theorem C53_wilson_partial {S : VS} (p : dprob S) o M C K t dt s :
  constOps p M C K -> linear M -> (forall x, C x = v0) -> (forall x, K x = v0) -> (forall u t, dp_res p u t = Yes v0) ->
  solvable p (fun x => M x +v (do_delta o * (do_gamma o * dt)) *v C x +v (do_gamma o * dt * (do_gamma o * dt) * do_alpha o) *v K x) ->
  (do_quasi o = true -> do_quasiIt o <> O) -> do_gamma o <> 0 -> x_A s = v0 ->
  exists s', wilsonNL p o t dt s = Done (Fin Success) s' /\ x_U s' = x_U s +v dt *v x_V s /\ x_V s' = x_V s /\ x_A s' = v0.
Proof.
  intros CO LM HC HK HR SV HQ G0 HA. set (lhs := fun x => _) in SV.
  assert (LC : linear C) by (split; intros; rewrite !HC; vring). assert (LK : linear K) by (split; intros; rewrite !HK; vring).
  assert (LL : linear lhs) by (apply lin_comb; assumption).
  assert (BM : forall i, badMod o i = false).
  { intros i. unfold badMod. destruct (do_quasi o); [|reflexivity]. specialize (HQ eq_refl). destruct (i =? 0)%nat; [reflexivity|]. cbn. apply Nat.eqb_neq. exact HQ. }
  assert (LP : forall n i K' s0 r0, (K' = K \/ i = O) -> x_A s0 = v0 -> exists q s1, newmarkLoop p o t (do_gamma o * dt) M r0 n i C K' v0 s0 = Done (Fin q) s1 /\ x_A s1 = v0 /\ x_inv s1 = x_inv s0).
  { induction n as [|n IH]; intros i K' s0 r0 HK' H0; [eexists _, _; split; [reflexivity|auto]|]. cbn [newmarkLoop]. rewrite BM.
    assert (ST : forall s0, x_A s0 = v0 -> exists q s1, match dp_solve p lhs v0 with
      | None => Done (NonFin NotConverged) s0
      | Some dA => let A := x_A s0 +v dA in let V := x_V s0 +v (do_delta o * (do_gamma o * dt)) *v dA in let U := x_U s0 +v (do_alpha o * (do_gamma o * dt) * (do_gamma o * dt)) *v dA in
        let s0 := xU U (xV V (xA A s0)) in let updateNorm := if Reqb (norm A) 0 then norm dA else norm dA / norm A in
        run! (Rs, s0) := ask (dp_res p U (t + do_gamma o * dt)) s0 in let rhs := Rs -v C V -v M A in
        if Rltb updateNorm (do_tolU o) && Rltb (norm rhs / r0) (do_tolF o) then Done (Fin Success) s0
        else newmarkLoop p o t (do_gamma o * dt) M r0 n (Datatypes.S i) C K rhs s0 end = Done (Fin q) s1 /\ x_A s1 = v0 /\ x_inv s1 = x_inv s0).
    { clear s0 H0. intros s0 H0. rewrite (solvable_zero _ _ _ SV LL eq_refl). cbv zeta. rewrite HR. cbn [ask rbind].
      replace (x_A s0 +v v0) with (v0 : S) by (rewrite H0; vring). rewrite HC, (lin_0 LM). replace (v0 -v v0 -v v0) with (v0 : S) by vring.
      match goal with |- context [if ?c then _ else _] => destruct c end; [eexists _, _; split; [reflexivity|split; reflexivity]|].
      match goal with |- context [newmarkLoop _ _ _ _ _ _ n _ _ _ _ ?s1] => destruct (IH (Datatypes.S i) K s1 r0 (or_introl eq_refl) eq_refl) as (q & s2 & E & E1 & E2) end.
      rewrite E. eexists _, _. split; [reflexivity|]. split; [exact E1|exact E2]. }
    destruct (renew o i) eqn:ER.
    - rewrite (co_damp _ _ _ _ CO). cbn [ask rbind]. rewrite (co_jac _ _ _ _ CO). cbn [ask rbind]. exact (ST s0 H0).
    - assert (K' = K). { destruct HK' as [->| ->]; [reflexivity|]. unfold renew in ER. cbn in ER. rewrite orb_true_r in ER. discriminate. } subst K'. cbn [ask rbind]. exact (ST s0 H0). }
  unfold wilsonNL, newmarkNL. cbv zeta. rewrite (co_mass _ _ _ _ CO). cbn [ask rbind]. rewrite (co_damp _ _ _ _ CO), HR. cbn [ask rbind].
  rewrite HC, (lin_0 LM). replace (v0 -v v0 -v v0) with (v0 : S) by vring.
  match goal with |- context [newmarkLoop _ _ _ _ _ ?r0 _ _ _ ?K' _ ?s1] => destruct (LP (do_maxIt o) O K' s1 r0 (or_intror eq_refl) eq_refl) as (q & s2 & E & E1 & E2) end.
  rewrite E. rewrite (proj2 (Reqb_false _ _) G0). eexists. split; [reflexivity|]. cbn. rewrite E1, HA. repeat split; vring.
Qed.
Print Assumptions C53_wilson_partial.
Example C53_example : exists s, wilsonNL (osc 2 0 0 (fun _ => 0)) (trap (7/5)) 0 3 (mkX (S := VS_R) 1 2 0 None) = Done (Fin Success) s /\ x_U s = 7.
Proof. eexists. split; [dev|]. rcbv. lra. Qed.
(** The linear variant does not move at all in free motion: V and U only get the new acceleration *)
Theorem C53_refuted : exists s, wilson (osc 2 0 0 (fun _ => 0)) (trap (7/5)) 0 3 (mkX (S := VS_R) 1 2 0 None) = Done (Fin Success) s /\
  x_U s = 1 /\ x_V s = 2.
Proof. eexists. split; [dev|]. rcbv. split; lra. Qed.
Print Assumptions C53_refuted.
