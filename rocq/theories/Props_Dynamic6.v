(** Properties of the time integrators: C75 (accelerations after a step), C76 (meaning of Success of
    a nonlinear step). *)
From Verif Require Import VS Status RunTac Static StaticRun Dynamic DynRun Props_Dynamic Props_Dynamic2 Props_Dynamic4.
Local Open Scope R_scope.

(** ** C75 *)
(** Linear Newmark and Bathe steps on a problem with constant matrices: the accelerations at the
    end satisfy the momentum balance at the new time. *)
Theorem C75_balance_partial {S : VS} (p : dprob S) o M C K t dt s q s' F :
  linearProb p -> constOps p M C K -> dp_force p (t + dt) = Yes F ->
  newmark p o t dt s = Done (Fin q) s' \/ bathe p o t dt s = Done (Fin q) s' ->
  M (x_A s') = F -v C (x_V s') -v K (x_U s').
Proof.
  intros L CO HF H.
  assert (B : M (x_A s') +v C (x_V s') +v K (x_U s') = F).
  { destruct H as [H|H].
    - destruct (C48_newmark p o t dt s q s' L H) as (_ & _ & _ & M' & C' & K' & F' & E1 & E2 & [E3 E4] & E).
      rewrite (co_mass _ _ _ _ CO) in E1. rewrite HF in E2. rewrite (co_damp _ _ _ _ CO) in E3. rewrite (co_jac _ _ _ _ CO) in E4.
      injection E1 as <-. injection E2 as <-. injection E3 as <-. injection E4 as <-. exact E.
    - destruct (C51_balance p o t dt s q s' L H) as (_ & M' & C' & K' & F' & E1 & E2 & E3 & E4 & E).
      rewrite (co_mass _ _ _ _ CO) in E1. rewrite HF in E2. rewrite (co_damp _ _ _ _ CO) in E3. rewrite (co_jac _ _ _ _ CO) in E4.
      injection E1 as <-. injection E2 as <-. injection E3 as <-. injection E4 as <-. exact E. }
  rewrite <- B. vring.
Qed.
Print Assumptions C75_balance_partial.
Example C75_example : exists s', bathe (osc 1 1 4 (fun t => 5 * t)) (trap (1/2)) 2 1 (mkX (S := VS_R) 1 2 0 None) = Done (Fin Success) s' /\
  x_A s' = 15 - 1 * x_V s' - 4 * x_U s' /\ x_A s' <> 0.
Proof. eexists. split; [dev|]. split; [rcbv; lra|rcbv; lra]. Qed.
(** The steps of the explicit Euler, implicit Euler and Runge-Kutta methods never change the
    accelerations, however they end. *)
Theorem C75_stale {S : VS} (p : dprob S) o t dt (s : xst S) f :
  In f [explicitEuler p; explicitEulerNL p; implicitEuler p; implicitEulerNL p o; rk4 p; rk4NL p] ->
  x_A (stateOf (f t dt s)) = x_A s.
Proof.
  assert (MI : forall M (s : xst S), exists c, massInverse p M s = Done (match massInverse p M s with Done a _ => a | Threw _ _ => None end) (xInv c s)).
  { clear s. intros M s. unfold massInverse. assert (EI : xInv (x_inv s) s = s) by (destruct s; reflexivity).
    destruct (dp_const p); [destruct (x_inv s) as [i|] eqn:EX|].
    - exists (Some i). rewrite EI. reflexivity.
    - destruct (dp_inv p M) as [i|]; [exists (Some i)|exists None; rewrite EI]; reflexivity.
    - destruct (dp_inv p M) as [i|]; [exists (Some i)|exists (x_inv s); rewrite EI]; reflexivity. }
  assert (LP : forall M U V r0 n i C K b s, x_A (stateOf (implicitLoop p o t dt M U V r0 n i C K b s)) = x_A s).
  { clear s. induction n as [|n IH]; intros; cbn [implicitLoop]; [reflexivity|]. cbv zeta. destruct (badMod o i); [reflexivity|].
    destruct (renew o i).
    - destruct (dp_damp p _ _); cbn [ask rbind]; [|reflexivity|reflexivity]. destruct (dp_jac p _ _); cbn [ask rbind]; [|reflexivity|reflexivity].
      destruct (dp_gmres p _ _); [|reflexivity]. destruct (dp_res p _ _); cbn [ask rbind]; [|reflexivity|reflexivity]. destruct (_ && _); [reflexivity|]. rewrite IH. reflexivity.
    - cbn [rbind]. destruct (dp_gmres p _ _); [|reflexivity]. destruct (dp_res p _ _); cbn [ask rbind]; [|reflexivity|reflexivity]. destruct (_ && _); [reflexivity|]. rewrite IH. reflexivity. }
  intros [<-|[<-|[<-|[<-|[<-|[<-|[]]]]]]].
  - unfold explicitEuler. cbv zeta. destruct (dp_mass p _) as [M| |]; cbn [ask rbind]; [|reflexivity|reflexivity]. destruct (MI M s) as [c ->]. cbn [rbind].
    repeat (match goal with |- context [ask ?a _] => destruct a end; cbn [ask rbind]; [|reflexivity|reflexivity]). destruct (massInverse p M s) as [[]|]; reflexivity.
  - unfold explicitEulerNL. cbv zeta. destruct (dp_mass p _) as [M| |]; cbn [ask rbind]; [|reflexivity|reflexivity]. destruct (MI M s) as [c ->]. cbn [rbind].
    repeat (match goal with |- context [ask ?a _] => destruct a end; cbn [ask rbind]; [|reflexivity|reflexivity]). destruct (massInverse p M s) as [[]|]; reflexivity.
  - unfold implicitEuler. cbv zeta.
    repeat (match goal with |- context [ask ?a _] => destruct a end; cbn [ask rbind]; [|reflexivity|reflexivity]). destruct (dp_gmres p _ _); reflexivity.
  - unfold implicitEulerNL. cbv zeta.
    repeat (match goal with |- context [ask ?a _] => destruct a end; cbn [ask rbind]; [|reflexivity|reflexivity]). apply LP.
  - unfold rk4. cbv zeta. destruct (dp_mass p _) as [M| |]; cbn [ask rbind]; [|reflexivity|reflexivity]. destruct (MI M s) as [c ->]. cbn [rbind].
    repeat (match goal with |- context [ask ?a _] => destruct a end; cbn [ask rbind]; [|reflexivity|reflexivity]). destruct (massInverse p M s) as [[]|]; reflexivity.
  - unfold rk4NL. cbv zeta. destruct (dp_mass p _) as [M| |]; cbn [ask rbind]; [|reflexivity|reflexivity]. destruct (MI M s) as [c ->]. cbn [rbind].
    repeat (match goal with |- context [ask ?a _] => destruct a end; cbn [ask rbind]; [|reflexivity|reflexivity]).
    destruct (massInverse p M s) as [[Mi|]|]; [|reflexivity|reflexivity].
    repeat (match goal with |- context [ask ?a _] => destruct a end; cbn [ask rbind]; [|reflexivity|reflexivity]). reflexivity.
Qed.
Print Assumptions C75_stale.
(** Refuted: after a Runge-Kutta, an implicit Euler and a Wilson step that return Success the
    accelerations do not satisfy the balance. *)
Theorem C75_refuted :
  (exists s', rk4 (osc 1 0 4 (fun _ => 0)) 0 1 (mkX (S := VS_R) 1 0 (-4) None) = Done (Fin Success) s' /\ x_A s' <> 0 - 0 * x_V s' - 4 * x_U s') /\
  (exists s', implicitEuler (osc2 1 0 4 (fun _ => 0)) 0 1 (mkX (S := VS_R) 1 0 (-4) None) = Done (Fin Success) s' /\ x_A s' <> 0 - 0 * x_V s' - 4 * x_U s') /\
  (exists s', wilson (osc 1 0 4 (fun _ => 0)) (trap (7/5)) 0 1 (mkX (S := VS_R) 1 0 (-4) None) = Done (Fin Success) s' /\ x_A s' <> 0 - 0 * x_V s' - 4 * x_U s').
Proof. split; [|split]; (eexists; split; [dev|rcbv; lra]). Qed.
Print Assumptions C75_refuted.

(** ** C76 *)
(** If a nonlinear Newmark step returns Success, displacement and velocity follow from the new
    acceleration by the Newmark formulas, and the momentum residual at the returned vectors is below
    TolF times that of the predictor with zero acceleration (TolF itself if that one is zero). The
    damping in the residual is one of an earlier displacement, the same if it is constant. *)
Theorem C76_newmark {S : VS} (p : dprob S) o t dt s s' :
  newmarkNL p o t dt s = Done (Fin Success) s' ->
  x_U s' = x_U s +v dt *v x_V s +v (dt * dt) *v ((1/2 - do_alpha o) *v x_A s +v do_alpha o *v x_A s') /\
  x_V s' = x_V s +v dt *v ((1 - do_delta o) *v x_A s +v do_delta o *v x_A s') /\
  exists M C0 R0 C R1 u, let pu := x_U s +v dt *v x_V s +v ((1/2 - do_alpha o) * dt * dt) *v x_A s in
    let pv := x_V s +v ((1 - do_delta o) * dt) *v x_A s in
    dp_mass p (t + dt) = Yes M /\ dp_damp p pu (t + dt) = Yes C0 /\ dp_res p pu (t + dt) = Yes R0 /\
    dp_damp p u (t + dt) = Yes C /\ dp_res p (x_U s') (t + dt) = Yes R1 /\
    let r0 := norm (R0 -v C0 pv -v M v0) in
    norm (R1 -v C (x_V s') -v M (x_A s')) < do_tolF o * (if Reqb r0 0 then 1 else r0).
Proof.
  intros H. unfold newmarkNL in H. cbv zeta in H.
  set (U0 := x_U s +v dt *v x_V s +v ((1 / 2 - do_alpha o) * dt * dt) *v x_A s +v (do_alpha o * dt * dt) *v v0) in *.
  set (V0 := x_V s +v ((1 - do_delta o) * dt) *v x_A s +v (do_delta o * dt) *v v0) in *.
  assert (EU : U0 = x_U s +v dt *v x_V s +v ((1 / 2 - do_alpha o) * dt * dt) *v x_A s) by (unfold U0; vring).
  assert (EV : V0 = x_V s +v ((1 - do_delta o) * dt) *v x_A s) by (unfold V0; vring).
  destruct (dp_mass p (t + dt)) as [M| |] eqn:EM; cbn [ask rbind] in H; try discriminate.
  destruct (dp_damp p U0 (t + dt)) as [C0| |] eqn:EC; cbn [ask rbind] in H; try discriminate.
  destruct (dp_res p U0 (t + dt)) as [R0| |] eqn:ER; cbn [ask rbind] in H; try discriminate.
  set (r0 := if Reqb (norm (R0 -v C0 V0 -v M v0)) 0 then 1 else norm (R0 -v C0 V0 -v M v0)) in *.
  assert (P0 : 0 < r0). { unfold r0. destruct (Reqb _ 0) eqn:E; [lra|]. apply Reqb_false in E. pose proof (norm_pos (R0 -v C0 V0 -v M v0)). lra. }
  assert (LP : forall n i C K b s1, (exists u, dp_damp p u (t + dt) = Yes C) ->
    x_U s1 = U0 +v (do_alpha o * dt * dt) *v x_A s1 -> x_V s1 = V0 +v (do_delta o * dt) *v x_A s1 ->
    newmarkLoop p o t dt M r0 n i C K b s1 = Done (Fin Success) s' ->
    x_U s' = U0 +v (do_alpha o * dt * dt) *v x_A s' /\ x_V s' = V0 +v (do_delta o * dt) *v x_A s' /\
    exists C u R1, dp_damp p u (t + dt) = Yes C /\ dp_res p (x_U s') (t + dt) = Yes R1 /\ norm (R1 -v C (x_V s') -v M (x_A s')) < do_tolF o * r0).
  { clear H. induction n as [|n IH]; intros i C K b s1 HC HU HV H; cbn [newmarkLoop] in H; [discriminate|]. cbv zeta in H.
    destruct (badMod o i); [discriminate|].
    assert (G : forall C K, (exists u, dp_damp p u (t + dt) = Yes C) ->
      match dp_solve p (fun x => M x +v (do_delta o * dt) *v C x +v (dt * dt * do_alpha o) *v K x) b with
      | Some dA => run! (Rs, s2) := ask (dp_res p (x_U s1 +v (do_alpha o * dt * dt) *v dA) (t + dt)) (xU (x_U s1 +v (do_alpha o * dt * dt) *v dA) (xV (x_V s1 +v (do_delta o * dt) *v dA) (xA (x_A s1 +v dA) s1))) in
          if Rltb (if Reqb (norm (x_A s1 +v dA)) 0 then norm dA else norm dA / norm (x_A s1 +v dA)) (do_tolU o) && Rltb (norm (Rs -v C (x_V s1 +v (do_delta o * dt) *v dA) -v M (x_A s1 +v dA)) / r0) (do_tolF o)
          then Done (Fin Success) s2 else newmarkLoop p o t dt M r0 n (Datatypes.S i) C K (Rs -v C (x_V s1 +v (do_delta o * dt) *v dA) -v M (x_A s1 +v dA)) s2
      | None => Done (NonFin NotConverged) s1 end = Done (Fin Success) s' ->
      x_U s' = U0 +v (do_alpha o * dt * dt) *v x_A s' /\ x_V s' = V0 +v (do_delta o * dt) *v x_A s' /\
      exists C u R1, dp_damp p u (t + dt) = Yes C /\ dp_res p (x_U s') (t + dt) = Yes R1 /\ norm (R1 -v C (x_V s') -v M (x_A s')) < do_tolF o * r0).
    { clear H HC C K. intros C K HC H. destruct (dp_solve p _ b) as [dA|]; [|discriminate].
      match type of H with context [ask (dp_res p ?u ?tt) _] => destruct (dp_res p u tt) as [R1| |] eqn:E1 end; cbn [ask rbind] in H; try discriminate.
      assert (HU' : x_U s1 +v (do_alpha o * dt * dt) *v dA = U0 +v (do_alpha o * dt * dt) *v (x_A s1 +v dA)) by (rewrite HU; vring).
      assert (HV' : x_V s1 +v (do_delta o * dt) *v dA = V0 +v (do_delta o * dt) *v (x_A s1 +v dA)) by (rewrite HV; vring).
      match type of H with (if ?c then _ else _) = _ => destruct c eqn:T end.
      - injection H as <-. cbn [x_U x_V x_A xU xV xA]. split; [exact HU'|]. split; [exact HV'|].
        destruct HC as [u HC]. exists C, u, R1. split; [exact HC|]. split; [exact E1|].
        apply andb_true_iff in T. destruct T as [_ T]. apply Rltb_true in T.
        apply (Rmult_lt_compat_r r0) in T; [|exact P0]. unfold Rdiv in T. rewrite Rmult_assoc, Rinv_l, Rmult_1_r in T by lra. exact T.
      - eapply IH; [| | |exact H]; cbn [x_U x_V x_A xU xV xA]; [exact HC|exact HU'|exact HV']. }
    destruct (renew o i).
    - destruct (dp_damp p (x_U s1) (t + dt)) as [C1| |] eqn:E1; cbn [ask rbind] in H; try discriminate.
      destruct (dp_jac p _ _) as [K1| |]; cbn [ask rbind] in H; try discriminate. apply (G C1 K1); [exists (x_U s1); exact E1|exact H].
    - cbn [rbind] in H. apply (G C K); assumption. }
  pose proof (fun a b => LP _ _ _ _ _ _ (ex_intro _ U0 EC) a b H) as Q. cbn [x_U x_V x_A xU xV xA] in Q.
  destruct Q as (A1 & A2 & C & u & R1 & A3 & A4 & A5); [vring|vring|].
  split; [rewrite A1, EU; vring|]. split; [rewrite A2, EV; vring|].
  exists M, C0, R0, C, R1, u. cbv zeta. rewrite <- EU, <- EV. do 5 (split; [assumption || reflexivity|]). exact A5.
Qed.
Print Assumptions C76_newmark.
(** a hardening spring: residual f - u^3, stiffness 3 u^2 *)
Definition duffing : dprob VS_R := let p := osc 1 0 0 (fun _ => 0) in
  mkDP (S := VS_R) (dp_mass p) (dp_damp p) (fun u _ => Yes (fun x => 3 * u * u * x)) (fun _ => Yes 4) (fun u _ => Yes (4 - u * u * u)) true (dp_solve p) (dp_inv p) (dp_gmres p).
Example C76_example : exists s', newmarkNL duffing (mkDO (1/4) (1/2) 1 (1/2) (1/2) 9 false 1) 0 1 (mkX (S := VS_R) 0 0 0 None) = Done (Fin Success) s' /\ x_A s' <> 0.
Proof. eexists. split; [dev|]. rcbv. lra. Qed.
(** Refuted for the others: a nonlinear Wilson step returns Success although its solve made no
    iteration; a nonlinear Bathe step returns Success although the Newmark step for its first half
    did not converge. *)
Theorem C76_refuted :
  (exists s1 s', let o := mkDO (1/4) (1/2) 1 (1/10) (1/10) 0 false 1 in
     newmarkNL duffing o 0 1 (mkX (S := VS_R) 0 0 0 None) = Done (Fin NotConverged) s1 /\
     wilsonNL duffing o 0 1 (mkX (S := VS_R) 0 0 0 None) = Done (Fin Success) s' /\ x_A s' = 0 /\ x_U s' = 0) /\
  (exists s1 s', let o := mkDO (1/4) (1/2) (1/2) (1/10) (1/10) 1 false 1 in let p := osc 1 0 0 (fun _ => 1) in
     newmarkNL p o 0 (1/2 * 1) (mkX (S := VS_R) 100 0 0 None) = Done (Fin NotConverged) s1 /\
     batheNL p o 0 1 (mkX (S := VS_R) 100 0 0 None) = Done (Fin Success) s').
Proof.
  split.
  - eexists _, _. cbv zeta. split; [dev|]. split; [dev|]. split; rcbv; lra.
  - eexists _, _. cbv zeta. split; [dev|]. dev.
Qed.
Print Assumptions C76_refuted.
