(** Energy and stability of the time integrators on linear problems: C101-C104. *)
From Verif Require Import VS Status RunTac Static StaticRun Dynamic DynRun Props_Dynamic Props_Dynamic2 Props_Dynamic3 Props_Dynamic4.
Local Open Scope R_scope.

(** ** C101 *)
Section Newmark.
Context {S : VS}.
Variables (p : dprob S) (o : dopts) (M C K : S -> S) (F : S).
Hypothesis L : linearProb p.
Hypothesis CO : constOps p M C K.
Hypothesis HF : forall t, dp_force p t = Yes F.
Hypothesis SM : forall x y, dot x (M y) = dot (M x) y.
Hypothesis SK : forall x y, dot x (K y) = dot (K x) y.
Lemma newmark_const t dt s q s' : newmark p o t dt s = Done (Fin q) s' ->
  x_U s' = x_U s +v dt *v x_V s +v (dt * dt) *v ((1/2 - do_alpha o) *v x_A s +v do_alpha o *v x_A s') /\
  x_V s' = x_V s +v dt *v ((1 - do_delta o) *v x_A s +v do_delta o *v x_A s') /\ balanced M C K F s'.
Proof.
  intros H. destruct (C48_newmark p o t dt s q s' L H) as (_ & EU & EV & M' & C' & K' & F' & E1 & E2 & (E3 & E4) & E5).
  rewrite (co_mass _ _ _ _ CO) in E1. injection E1 as <-. rewrite HF in E2. injection E2 as <-.
  rewrite (co_damp _ _ _ _ CO) in E3. injection E3 as <-. rewrite (co_jac _ _ _ _ CO) in E4. injection E4 as <-. auto.
Qed.
Let LM := lp_mass L 0 M (co_mass _ _ _ _ CO 0).
Let LC := lp_damp L v0 0 C (co_damp _ _ _ _ CO v0 0).
Let LK := lp_jac L v0 0 K (co_jac _ _ _ _ CO v0 0).
(** Without damping: a step changes the energy plus dt^2 (alpha/2 - delta/4) a.Ma by a multiple of
    1/2 - delta; hence for 2 alpha >= delta >= 1/2 it does not grow. *)
Theorem C101_undamped t dt s q s' :
  (forall x, C x = v0) -> balanced M C K F s -> newmark p o t dt s = Done (Fin q) s' ->
  let th := do_alpha o - do_delta o / 2 in
  let du := x_U s' -v x_U s in let da := x_A s' -v x_A s in
  let W x := energy M K F x + 1/2 * (dt * dt * th) * dot (x_A x) (M (x_A x)) in
  W s' = W s - (do_delta o - 1/2) * (dot du (K du) + dt * dt * th * dot da (M da)).
Proof.
  intros Z B H th du da W. destruct (newmark_const _ _ _ _ _ H) as (EU & EV & B').
  unfold balanced in B, B'. rewrite Z in B, B'. unfold W, energy, du, da, th. destruct s as [u v a i], s' as [u' v' a' i']. cbn in *.
  set (al := do_alpha o) in *. set (de := do_delta o) in *. clearbody al de.
  set (d := dt *v v +v (dt * dt) *v ((1/2 - al) *v a +v al *v a')). set (e := dt *v ((1 - de) *v a +v de *v a')).
  assert (HU : u' = u +v d) by (rewrite EU; unfold d; vring). assert (HV : v' = v +v e) by exact EV.
  assert (K0 : K u = F -v M a) by (rewrite <- B; vring).
  assert (KD : K d = M a -v M a').
  { replace d with (u' -v u) by (rewrite HU; vring). lin LK. rewrite K0. transitivity ((M a' +v v0 +v K u') -v M a' -v (F -v M a)); [vring|]. rewrite B'. vring. }
  replace (u' -v u) with d by (rewrite HU; vring).
  assert (X2 : dot u' (K u') = dot u (K u) + 2 * dot d (F -v M a) + dot d (M a -v M a')).
  { rewrite HU, <- KD, <- K0. lin LK. autorewrite with dot. rewrite (SK u d), (dot_sym _ (K u)). ring. }
  assert (X3 : dot F u' = dot F u + dot d F) by (rewrite HU; autorewrite with dot; rewrite (dot_sym _ F d); ring).
  assert (X1 : dot v' (M v') = dot v (M v) + 2 * dot e (M v) + dot e (M e)).
  { rewrite HV. lin LM. autorewrite with dot. rewrite (SM v e), (dot_sym _ (M v)). ring. }
  rewrite X1, X2, X3, KD. unfold d, e. lin LM. autorewrite with dot. rewrite (SM a' a), (dot_sym _ (M a') a), !(SM _ v), !(dot_sym _ (M _) v). field.
Qed.
(** With damping: the quantity a.Ma + v.Kv + dt (delta - 1/2) a.Ca + dt^2 (alpha - delta/2) a.Ka *)
Definition rateEnergy (dt : R) (s : xst S) : R :=
  dot (x_A s) (M (x_A s)) + dot (x_V s) (K (x_V s)) + dt * (do_delta o - 1/2) * dot (x_A s) (C (x_A s)) +
  dt * dt * (do_alpha o - do_delta o / 2) * dot (x_A s) (K (x_A s)).
Lemma rate_step t dt s q s' :
  (forall x y, dot x (C y) = dot (C x) y) -> balanced M C K F s -> newmark p o t dt s = Done (Fin q) s' ->
  balanced M C K F s' /\
  let g := do_delta o - 1/2 in let th := do_alpha o - do_delta o / 2 in
  let da := x_A s' -v x_A s in let w := (1/2) *v (x_A s +v x_A s') +v (g / 2) *v da in
  rateEnergy dt s' = rateEnergy dt s - 2 * dt * (dot w (C w) + 3/4 * (g * g) * dot da (C da)) -
    2 * g * (dot da (M da) + dt * dt * th * dot da (K da)).
Proof.
  intros SC B H. destruct (newmark_const _ _ _ _ _ H) as (EU & EV & B'). split; [exact B'|].
  unfold balanced in B, B'. unfold rateEnergy. destruct s as [u v a i], s' as [u' v' a' i']. cbn in *.
  set (al := do_alpha o) in *. set (de := do_delta o) in *. clearbody al de.
  set (d := a' -v a). assert (HA : a' = a +v d) by (unfold d; vring).
  assert (HV : v' = v +v dt *v a +v (dt * de) *v d) by (rewrite EV, HA; vring).
  assert (HU : u' = u +v dt *v v +v (dt * dt / 2) *v a +v (dt * dt * al) *v d) by (rewrite EU, HA; vfield).
  (* the difference of the two balances *)
  assert (D : dt *v K v = vopp (M d) -v dt *v C a -v (dt * de) *v C d -v (dt * dt / 2) *v K a -v (dt * dt * al) *v K d).
  { assert (Q : (M a' +v C v' +v K u') -v (M a +v C v +v K u) = v0) by (rewrite B, B'; vring).
    revert Q. rewrite HA, HV, HU. lin LM. lin LC. lin LK. intros Q.
    match type of Q with ?l = _ => transitivity (dt *v K v -v l); [rewrite Q|]; vring end. }
  assert (DV : forall z, dt * dot z (K v) = dot z (vopp (M d) -v dt *v C a -v (dt * de) *v C d -v (dt * dt / 2) *v K a -v (dt * dt * al) *v K d)).
  { intros z. rewrite <- D. autorewrite with dot. ring. }
  assert (X : dot v' (K v') = dot v (K v) + 2 * (dt * dot (a +v de *v d) (K v)) + dt * dt * dot (a +v de *v d) (K (a +v de *v d))).
  { rewrite HV. lin LK. autorewrite with dot. rewrite !(SK v), !(dot_sym _ (K v)). ring. }
  rewrite X, DV, HA. lin LM. lin LC. lin LK. autorewrite with dot.
  rewrite (SM d a), (dot_sym _ (M d) a), (SC d a), (dot_sym _ (C d) a), (SK d a), (dot_sym _ (K d) a). field.
Qed.
(** Symmetric, nonnegative mass, damping and stiffness, constant force, 2 alpha >= delta >= 1/2: for
    every step size and every number of steps the accelerations and velocities stay below a bound
    that is known at the start. *)
Theorem C101_stable t dt n s t' s' :
  (forall x y, dot x (C y) = dot (C x) y) ->
  (forall x, 0 <= dot x (M x)) -> (forall x, 0 <= dot x (C x)) -> (forall x, 0 <= dot x (K x)) ->
  1/2 <= do_delta o <= 2 * do_alpha o -> 0 <= dt -> balanced M C K F s ->
  Steps (newmark p o) t (repeat dt n) s t' s' ->
  dot (x_A s') (M (x_A s')) + dot (x_V s') (K (x_V s')) <=
  dot (x_A s) (M (x_A s)) + dot (x_V s) (K (x_V s)) + dt * (do_delta o - 1/2) * dot (x_A s) (C (x_A s)) +
    dt * dt * (do_alpha o - do_delta o / 2) * dot (x_A s) (K (x_A s)) /\
  M (x_A s') +v C (x_V s') +v K (x_U s') = F.
Proof.
  intros SC PM PC PK [D1 D2] P B H.
  enough (E : rateEnergy dt s' <= rateEnergy dt s /\ balanced M C K F s').
  { destruct E as [E E']. split; [|exact E']. change (dot (x_A s') (M (x_A s')) + dot (x_V s') (K (x_V s')) <= rateEnergy dt s).
    unfold rateEnergy in E at 1. pose proof (PC (x_A s')). pose proof (PK (x_A s')).
    assert (0 <= dt * (do_delta o - 1/2) * dot (x_A s') (C (x_A s'))) by (apply Rmult_le_pos; [apply Rmult_le_pos; lra|assumption]).
    assert (0 <= dt * dt * (do_alpha o - do_delta o / 2) * dot (x_A s') (K (x_A s'))) by (apply Rmult_le_pos; [apply Rmult_le_pos; [apply Rmult_le_pos; lra|lra]|assumption]). lra. }
  revert t s B H. induction n as [|n IH]; intros t s B H; inversion H as [|? ? ? ? s1 ? ? H1 H2]; subst; [split; [lra|exact B]|].
  destruct (rate_step _ _ _ _ _ SC B H1) as (B1 & E). destruct (IH _ _ B1 H2) as (I & B2). split; [|exact B2].
  eapply Rle_trans; [exact I|]. cbv zeta in E. rewrite E. clear E I.
  set (g := do_delta o - 1/2) in *. assert (0 <= g) by (unfold g; lra). set (th := do_alpha o - do_delta o / 2). assert (0 <= th) by (unfold th; lra).
  match goal with |- _ - 2 * dt * (dot ?w (C ?w) + _ * dot ?d _) - _ <= _ => pose proof (PC w); pose proof (PC d); pose proof (PM d); pose proof (PK d);
    assert (0 <= dt * (dot w (C w) + 3/4 * (g * g) * dot d (C d))) by (apply Rmult_le_pos; [lra|]; assert (0 <= g * g * dot d (C d)) by (apply Rmult_le_pos; [nra|assumption]); lra);
    assert (0 <= g * (dot d (M d) + dt * dt * th * dot d (K d))) by (apply Rmult_le_pos; [lra|]; assert (0 <= dt * dt * th * dot d (K d)) by (apply Rmult_le_pos; [apply Rmult_le_pos; nra|assumption]); lra) end.
  lra.
Qed.
End Newmark.
Print Assumptions C101_undamped.
Print Assumptions C101_stable.
(** damped oscillator, step of ten time units, numerical damping *)
Definition damp3 : dopts := mkDO (2/5) (3/5) 1 (1/10) (1/10) 5 false 1.
Example C101_example : exists t' s', Steps (newmark (osc 1 1 4 (fun _ => 2)) damp3) 0 (repeat 10 2) (mkX (S := VS_R) 1 0 (-2) None) t' s' /\
  balanced (S := VS_R) (fun x => 1 * x) (fun x => 1 * x) (fun x => 4 * x) 2 (mkX (S := VS_R) 1 0 (-2) None) /\
  1/2 <= do_delta damp3 <= 2 * do_alpha damp3 /\ (forall x, 0 <= dot (x : VS_R) (4 * x)) /\ x_A s' * (1 * x_A s') + x_V s' * (4 * x_V s') < 60.
Proof.
  eexists _, _. split; [cbn [repeat]; eapply StCons; [dev|eapply StCons; [dev|apply StNil]]|]. split; [rcbv; lra|]. split; [cbn; lra|]. split; [intros; cbn; nra|]. rcbv. lra.
Qed.
(** The condition matters: with alpha = 0, which the description of the option allows, one step of
    the undamped oscillator multiplies the quantity. *)
Theorem C101_sharp : exists s', newmark (osc 1 0 4 (fun _ => 0)) (mkDO 0 (1/2) 1 (1/10) (1/10) 5 false 1) 0 2 (mkX (S := VS_R) 1 0 (-4) None) = Done (Fin Success) s' /\
  balanced (S := VS_R) (fun x => 1 * x) (fun x => 0 * x) (fun x => 4 * x) 0 (mkX (S := VS_R) 1 0 (-4) None) /\
  x_A s' * (1 * x_A s') + x_V s' * (4 * x_V s') > 50 * ((-4) * (1 * (-4)) + 0 * (4 * 0)).
Proof. eexists. split; [dev|]. split; rcbv; lra. Qed.
Print Assumptions C101_sharp.

(** ** C102 *)
(** kinetic plus elastic energy of a displacement and a velocity *)
Definition quad {S : VS} (M K : S -> S) (u v : S) : R := 1/2 * dot v (M v) + 1/2 * dot u (K u).
(** the algebra of one Bathe step, in units in which the step has length one: w_i = (u_i - u_0)/dt,
    A_i = dt a_i, D = dt C, H = dt^2 K *)
Lemma bathe_core {S : VS} (M D H : S -> S) (g : R) (x0 x1 x2 w1 w2 A0 A1 A2 : S) :
  linear M -> linear D -> linear H -> (forall x y, dot x (M y) = dot (M x) y) -> (forall x y, dot x (H y) = dot (H x) y) ->
  g <> 0 -> 1 - g <> 0 -> 2 - g <> 0 ->
  x1 = x0 +v (g / 2) *v (A0 +v A1) -> w1 = (g / 2) *v (x0 +v x1) ->
  A2 = ((1 - g) / g) *v x0 +v ((-1) / ((1 - g) * g)) *v x1 +v ((2 - g) / (1 - g)) *v x2 ->
  x2 = ((-1) / ((1 - g) * g)) *v w1 +v ((2 - g) / (1 - g)) *v w2 ->
  H w1 = M A0 +v D x0 -v M A1 -v D x1 -> H w2 = M A0 +v D x0 -v M A2 -v D x2 ->
  let dv := (1 - g) *v x0 -v x1 +v g *v x2 in let dw := g *v w2 -v w1 in
  let q := (1 / (2 * (2 - g))) *v (x0 +v x1 +v (2 * (1 - g)) *v x2) in let r := 2 *v x2 -v x0 -v x1 in
  1/2 * (dot x2 (M x2) - dot x0 (M x0)) - 1/2 * dot w2 (M A2 +v D x2 +v M A0 +v D x0) =
  - (1 / ((2 - g) * (2 - g)) * quad M H dw dv) - dot q (D q) - g * (1 - g) / (4 * ((2 - g) * (2 - g) * (2 - g))) * dot r (D r).
Proof.
  intros LM LD LH SM SH G0 G1 G2 E1 E2 E3 E4 B1 B2 dv dw q r.
  set (P := 2 - g) in *. set (c := g * (1 - g) / 2).
  set (x := (1 / (P * P)) *v (2 *v w2 -v w1)). set (y := (1 / (P * P)) *v (2 *v x2 -v x0 -v x1)).
  set (t := (1 / (P * P)) *v (2 *v A2 -v A0 -v A1)). set (z := (2 / (g * (1 - g) * P)) *v (g *v A2 -v A1 +v (1 - g) *v A0)).
  (* w2 from x2, x2 from A2 *)
  assert (F2 : x2 = ((1 - g) / P) *v (A2 -v ((1 - g) / g) *v x0 +v (1 / ((1 - g) * g)) *v x1)).
  { rewrite E3. vfield. auto. }
  assert (F3 : w2 = ((1 - g) / P) *v (x2 +v (1 / ((1 - g) * g)) *v w1)).
  { rewrite E4 at 1. vfield. auto. }
  assert (Mt : M t = vopp (D y) -v H x).
  { unfold t, y, x. lin LM. lin LD. lin LH. rewrite B1, B2. vring. }
  assert (Mz : M z = vopp (D t) -v H y).
  { assert (T : t = (2 / (g * (1 - g) * P)) *v (g *v x2 -v x1 +v (1 - g) *v x0)).
    { unfold t. rewrite F2, E1. unfold P. vfield. auto. }
    assert (Y : y = (2 / (g * (1 - g) * P)) *v (g *v w2 -v w1)).
    { unfold y. rewrite F3, F2, E2, E1. unfold P. vfield. auto. }
    rewrite T, Y. unfold z. lin LM. lin LD. lin LH. rewrite B1, B2. vring. }
  assert (Q1 : q = P *v x -v c *v y). { unfold q, x, y, c. rewrite F3, F2, E2, E1. unfold P. vfield. auto. }
  assert (Q2 : dv = (c * P) *v t). { unfold dv, t, c. rewrite F2, E1. unfold P. vfield. auto. }
  assert (Q3 : dw = (c * P) *v y). { unfold dw, y, c. rewrite F3, F2, E2, E1. unfold P. vfield. auto. }
  assert (Q4 : r = (P * P) *v y). { unfold r, y. vfield. auto. }
  assert (Q5 : x2 = x0 +v (P *v y -v c *v t)). { unfold y, t, c. rewrite F2, E1. unfold P. vfield. auto. }
  assert (Q6 : w2 = P *v x -v c *v y). { unfold x, y, c. rewrite F3, F2, E2, E1. unfold P. vfield. auto. }
  assert (Q7 : x2 +v x0 = 2 *v (P *v x -v c *v y +v (c / 2) *v t)). { unfold x, y, t, c. rewrite F3, F2, E2, E1. unfold P. vfield. auto. }
  assert (Q8 : A2 +v A0 = 2 *v (P *v y -v c *v t +v (c / 2) *v z)). { unfold y, t, z, c. rewrite F2, E1. unfold P. vfield. auto. }
  assert (X1 : dot x2 (M x2) - dot x0 (M x0) = dot (x2 +v x0) (M (P *v y -v c *v t))).
  { replace (P *v y -v c *v t) with (x2 -v x0) by (rewrite Q5; vring). lin LM. autorewrite with dot. rewrite (SM x2 x0), (dot_sym _ (M x2)). ring. }
  assert (X2 : M A2 +v D x2 +v M A0 +v D x0 = M (A2 +v A0) +v D (x2 +v x0)) by (lin LM; lin LD; vring).
  rewrite X1, X2, Q8, Q7, Q6, Q1, Q2, Q3, Q4. unfold quad. lin LM. lin LD. lin LH. rewrite Mz, Mt. unfold c, P. autorewrite with dot.
  assert (TY : dot t (M y) = - dot y (D y) - dot x (H y)).
  { rewrite (SM t y), Mt. autorewrite with dot. rewrite (dot_sym _ (D y)), (SH x y). reflexivity. }
  rewrite TY, (SH y x), (dot_sym _ (H y) x). field. auto.
Qed.
Section Bathe.
Context {S : VS}.
Variables (p : dprob S) (o : dopts) (M C K : S -> S) (F : S).
Hypothesis L : linearProb p.
Hypothesis CO : constOps p M C K.
Hypothesis HF : forall t, dp_force p t = Yes F.
Hypothesis Ho : do_alpha o = 1/4 /\ do_delta o = 1/2.
Hypothesis SM : forall x y, dot x (M y) = dot (M x) y.
Hypothesis SK : forall x y, dot x (K y) = dot (K x) y.
(** The energy that one linear Bathe step takes away, for every position gamma of the sub-step:
    with d the second difference of (old, sub-step, new) it is the energy of d / (2 - gamma), plus
    what the dampers take at two averages of the velocities. *)
Theorem C102_energy t dt s q s' :
  do_gamma o <> 2 -> balanced M C K F s -> bathe p o t dt s = Done (Fin q) s' ->
  q = Success /\ balanced M C K F s' /\
  exists s1, newmark p o t (do_gamma o * dt) s = Done (Fin Success) s1 /\
  let g := do_gamma o in
  let du := (1 - g) *v x_U s -v x_U s1 +v g *v x_U s' in let dv := (1 - g) *v x_V s -v x_V s1 +v g *v x_V s' in
  let w := (1 / (2 * (2 - g))) *v (x_V s +v x_V s1 +v (2 * (1 - g)) *v x_V s') in let r := 2 *v x_V s' -v x_V s -v x_V s1 in
  energy M K F s' = energy M K F s - 1 / ((2 - g) * (2 - g)) * quad M K du dv
    - dt * (dot w (C w) + g * (1 - g) / (4 * ((2 - g) * (2 - g) * (2 - g))) * dot r (C r)).
Proof.
  intros G2 B H. pose proof (C51_balance p o t dt s q s' L H) as (-> & M' & C' & K' & F' & N1 & N2 & N3 & N4 & B2).
  rewrite (co_mass _ _ _ _ CO) in N1. injection N1 as <-. rewrite HF in N2. injection N2 as <-.
  rewrite (co_damp _ _ _ _ CO) in N3. injection N3 as <-. rewrite (co_jac _ _ _ _ CO) in N4. injection N4 as <-.
  split; [reflexivity|]. split; [exact B2|].
  destruct (bathe_ok _ _ _ _ _ _ _ H) as (_ & G0 & G1 & D0 & q1 & s1 & M' & C' & K' & F' & E0 & _ & _ & _ & _ & _ & EV & EA). clear M' C' K' F'.
  destruct (C48_newmark p o t _ s q1 s1 L E0) as (-> & _). exists s1. split; [exact E0|].
  destruct (newmark_const p o M C K F L CO HF _ _ _ _ _ E0) as (EU1 & EV1 & B1). destruct Ho as [Ha Hd]. rewrite Ha in EU1. rewrite Hd in EV1.
  assert (LM := lp_mass L 0 M (co_mass _ _ _ _ CO 0)). assert (LC := lp_damp L v0 0 C (co_damp _ _ _ _ CO v0 0)). assert (LK := lp_jac L v0 0 K (co_jac _ _ _ _ CO v0 0)).
  unfold balanced in B, B1, B2. unfold energy. unfold bc1, bc2, bc3 in EV, EA.
  destruct s as [u v a i], s1 as [u1 v1 a1 i1], s' as [u2 v2 a2 i2]. cbn in *. clear H E0 Ha Hd.
  set (g := do_gamma o) in *. clearbody g. assert (G3 : 1 - g <> 0) by lra. assert (G4 : 2 - g <> 0) by lra.
  set (w1 := (1 / dt) *v (u1 -v u)). set (w2 := (1 / dt) *v (u2 -v u)).
  set (D := fun x => dt *v C x). set (H := fun x => (dt * dt) *v K x).
  assert (LD : linear D) by (unfold D; split; intros; [rewrite (lin_add _ LC)|rewrite (lin_scale _ LC)]; vring).
  assert (LH : linear H) by (unfold H; split; intros; [rewrite (lin_add _ LK)|rewrite (lin_scale _ LK)]; vring).
  assert (SH : forall x y, dot x (H y) = dot (H x) y) by (intros; unfold H; autorewrite with dot; rewrite SK; reflexivity).
  pose proof (bathe_core M D H g v v1 v2 w1 w2 (dt *v a) (dt *v a1) (dt *v a2) LM LD LH SM SH G0 G3 G4) as Q.
  specialize (Q ltac:(rewrite EV1; vfield)). specialize (Q ltac:(unfold w1; rewrite EU1, EV1; vfield; auto)).
  specialize (Q ltac:(rewrite EA; vfield; auto)). specialize (Q ltac:(rewrite EV; unfold w1, w2; vfield; auto)).
  assert (KU : forall ui vi ai, M ai +v C vi +v K ui = F -> K ui = F -v M ai -v C vi) by (intros ui vi ai E; rewrite <- E; vring).
  specialize (Q ltac:(unfold w1, H, D; lin LK; lin LM; rewrite (KU _ _ _ B), (KU _ _ _ B1); vfield; auto)).
  specialize (Q ltac:(unfold w2, H, D; lin LK; lin LM; rewrite (KU _ _ _ B), (KU _ _ _ B2); vfield; auto)).
  cbv zeta in Q.
  assert (X : 1/2 * dot u2 (K u2) - dot F u2 - (1/2 * dot u (K u) - dot F u) = - (1/2 * dot w2 (M (dt *v a2) +v D v2 +v M (dt *v a) +v D v))).
  { transitivity (1/2 * dot (u2 -v u) ((K u2 -v F) +v (K u -v F))).
    - autorewrite with dot. rewrite (SK u2 u), (dot_sym _ (K u2) u), !(dot_sym _ F). field.
    - rewrite (KU _ _ _ B), (KU _ _ _ B2). unfold w2, D. lin LM. autorewrite with dot. field. auto. }
  assert (Y : quad M H (g *v w2 -v w1) ((1 - g) *v v -v v1 +v g *v v2) = quad M K ((1 - g) *v u -v u1 +v g *v u2) ((1 - g) *v v -v v1 +v g *v v2)).
  { unfold quad, H. replace ((1 - g) *v u -v u1 +v g *v u2) with (dt *v (g *v w2 -v w1)) by (unfold w1, w2; vfield; auto). rewrite (lin_scale _ LK). autorewrite with dot. ring. }
  rewrite Y in Q. unfold D in Q. rewrite !dot_scale_r in Q. fold D in Q. 
  match type of Q with _ = ?r => match goal with |- ?l = ?e - ?x - ?y => assert (Z : l - e = r) end end.
  { rewrite <- Q. unfold D in X |- *. lra. }
  lra.
Qed.
(** Hence for a sub-step inside the step the energy never grows, whatever the step sizes, when mass,
    damping and stiffness are nonnegative. *)
Theorem C102_stable t l s t' s' :
  0 < do_gamma o < 1 -> (forall x, 0 <= dot x (M x)) -> (forall x, 0 <= dot x (C x)) -> (forall x, 0 <= dot x (K x)) ->
  balanced M C K F s -> Forall (fun dt => 0 <= dt) l -> Steps (bathe p o) t l s t' s' ->
  energy M K F s' <= energy M K F s /\ balanced M C K F s'.
Proof.
  intros G PM PC PK B P H. induction H as [t s|t dt l s s1 t2 s2 H H1 IH]; [split; [lra|exact B]|]. inversion P; subst.
  destruct (C102_energy _ _ _ _ _ ltac:(lra) B H) as (_ & B1 & m & _ & E). cbv zeta in E. destruct (IH B1 H4) as [I B2]. split; [|exact B2].
  set (g := do_gamma o) in *. rewrite E in I. clear E.
  match type of I with _ <= _ - ?k * quad M K ?a ?b - dt * (?x + ?k2 * ?y) => 
    assert (0 <= quad M K a b) by (unfold quad; pose proof (PM b); pose proof (PK a); lra);
    assert (0 <= x) by apply PC; assert (0 <= y) by apply PC;
    assert (0 <= k) by (apply Rlt_le, Rdiv_lt_0_compat; nra);
    assert (0 <= k2) by (apply Rlt_le, Rdiv_lt_0_compat; [nra|repeat apply Rmult_lt_0_compat; lra]);
    assert (0 <= k * quad M K a b) by (apply Rmult_le_pos; assumption);
    assert (0 <= dt * (x + k2 * y)) by (apply Rmult_le_pos; [assumption|]; assert (0 <= k2 * y) by (apply Rmult_le_pos; assumption); lra) end.
  lra.
Qed.
End Bathe.
Print Assumptions C102_energy.
Print Assumptions C102_stable.
Example C102_example : exists t' s', Steps (bathe (osc 1 1 4 (fun _ => 2)) (trap (1/3))) 0 [6; 1/2] (mkX (S := VS_R) 1 0 (-2) None) t' s' /\
  balanced (S := VS_R) (fun x => 1 * x) (fun x => 1 * x) (fun x => 4 * x) 2 (mkX (S := VS_R) 1 0 (-2) None) /\
  -1/2 < energy (S := VS_R) (fun x => 1 * x) (fun x => 4 * x) 2 s' < -1/4.
Proof.
  eexists _, _. split; [eapply StCons; [dev|eapply StCons; [dev|apply StNil]]|]. split; [rcbv; lra|]. rcbv. lra.
Qed.

(** ** C103 *)
Section Euler.
Context {S : VS}.
Variables (p : dprob S) (M C K : S -> S) (F : S).
Hypothesis CO : constOps p M C K.
Hypothesis HF : forall t, dp_force p t = Yes F.
Hypothesis SM : forall x y, dot x (M y) = dot (M x) y.
Hypothesis SK : forall x y, dot x (K y) = dot (K x) y.
Lemma energy_diff s s' : linear M -> linear K ->
  let du := x_U s' -v x_U s in let dv := x_V s' -v x_V s in
  energy M K F s' = energy M K F s + dot (x_V s') (M dv) + dot (K (x_U s') -v F) du - quad M K du dv /\
  energy M K F s' = energy M K F s + dot (x_V s) (M dv) + dot (K (x_U s) -v F) du + quad M K du dv.
Proof.
  intros LM LK du dv. unfold du, dv, energy, quad. lin LM. lin LK. autorewrite with dot.
  rewrite (SM (x_V s') (x_V s)), (dot_sym _ (M (x_V s'))), !(dot_sym _ (K _) _), (SK (x_U s') (x_U s)), !(dot_sym _ (K _) _).
  split; field.
Qed.
(** Implicit Euler (linear): a step takes away the energy of the increment and what the dampers
    dissipate at the new velocity. *)
Theorem C103_implicit t dt s q s' :
  linearProb p -> exactGmres p -> implicitEuler p t dt s = Done (Fin q) s' ->
  energy M K F s' = energy M K F s - quad M K (x_U s' -v x_U s) (x_V s' -v x_V s) - dt * dot (x_V s') (C (x_V s')).
Proof.
  intros L G H. destruct (C54_linear p t dt s q s' L G H) as (M' & C' & K' & F' & N1 & N2 & N3 & N4 & EU & EV).
  rewrite (co_mass _ _ _ _ CO) in N1. injection N1 as <-. rewrite HF in N2. injection N2 as <-.
  rewrite (co_damp _ _ _ _ CO) in N3. injection N3 as <-. rewrite (co_jac _ _ _ _ CO) in N4. injection N4 as <-.
  assert (LM := lp_mass L 0 M (co_mass _ _ _ _ CO 0)). assert (LK := lp_jac L v0 0 K (co_jac _ _ _ _ CO v0 0)).
  destruct (energy_diff s s' LM LK) as [E _]. rewrite E, EV.
  replace (dot (K (x_U s') -v F) (x_U s' -v x_U s)) with (dt * dot (x_V s') (K (x_U s') -v F)).
  - autorewrite with dot. ring.
  - assert (D : x_U s' -v x_U s = dt *v x_V s') by (rewrite EU; vring). rewrite D, (dot_sym _ _ (dt *v x_V s')). autorewrite with dot. ring.
Qed.
(** Hence over any number of steps of any lengths the energy does not grow. *)
Theorem C103_implicit_stable t l s t' s' :
  linearProb p -> exactGmres p -> (forall x, 0 <= dot x (M x)) -> (forall x, 0 <= dot x (C x)) -> (forall x, 0 <= dot x (K x)) ->
  Forall (fun dt => 0 <= dt) l -> Steps (implicitEuler p) t l s t' s' -> energy M K F s' <= energy M K F s.
Proof.
  intros L G PM PC PK P H. induction H as [t s|t dt l s s1 t2 s2 H H1 IH]; [lra|]. inversion P; subst.
  eapply Rle_trans; [apply IH; assumption|]. rewrite (C103_implicit _ _ _ _ _ L G H). unfold quad.
  pose proof (PM (x_V s1 -v x_V s)). pose proof (PK (x_U s1 -v x_U s)). assert (0 <= dt * dot (x_V s1) (C (x_V s1))) by (apply Rmult_le_pos; auto). lra.
Qed.
(** Explicit Euler (linear): a step adds the energy of the increment; without damping the energy
    never decreases, whatever the step size. *)
Theorem C103_explicit t dt s q s' Minv :
  linear M -> linear K -> dp_inv p M = Some Minv -> (forall x, M (Minv x) = x) -> (x_inv s = None \/ x_inv s = Some Minv) ->
  explicitEuler p t dt s = Done (Fin q) s' ->
  q = Success /\ (x_inv s' = None \/ x_inv s' = Some Minv) /\
  energy M K F s' = energy M K F s + quad M K (x_U s' -v x_U s) (x_V s' -v x_V s) - dt * dot (x_V s) (C (x_V s)).
Proof.
  intros LM LK HI IM HX H. destruct (energy_diff s s' LM LK) as [_ E].
  assert (X : q = Success /\ (x_inv s' = None \/ x_inv s' = Some Minv) /\ x_U s' = x_U s +v dt *v x_V s /\ x_V s' = x_V s +v dt *v Minv (F -v K (x_U s) -v C (x_V s))).
  { unfold explicitEuler, massInverse in H. cbv zeta in H. rewrite (co_mass _ _ _ _ CO) in H. cbn [ask rbind] in H. rewrite HI in H.
    destruct HX as [HX|HX]; rewrite HX in H; destruct (dp_const p); cbn [rbind] in H; rewrite HF, (co_damp _ _ _ _ CO), (co_jac _ _ _ _ CO) in H; cbn [ask rbind] in H; injection H as <- <-; cbn; auto 10. }
  destruct X as (X1 & X2 & XU & XV). split; [exact X1|]. split; [exact X2|]. rewrite E. clear E.
  assert (DV : M (x_V s' -v x_V s) = dt *v (F -v K (x_U s) -v C (x_V s))).
  { replace (x_V s' -v x_V s) with (dt *v Minv (F -v K (x_U s) -v C (x_V s))) by (rewrite XV; vring). rewrite (lin_scale _ LM), IM. reflexivity. }
  assert (DU : x_U s' -v x_U s = dt *v x_V s) by (rewrite XU; vring).
  rewrite DV. replace (dot (K (x_U s) -v F) (x_U s' -v x_U s)) with (dt * dot (x_V s) (K (x_U s) -v F)).
  - autorewrite with dot. ring.
  - rewrite DU, (dot_sym _ _ (dt *v x_V s)). autorewrite with dot. ring.
Qed.
Theorem C103_explicit_grows t l s t' s' Minv :
  linear M -> linear K -> dp_inv p M = Some Minv -> (forall x, M (Minv x) = x) -> (x_inv s = None \/ x_inv s = Some Minv) ->
  (forall x, C x = v0) -> (forall x, 0 <= dot x (M x)) -> (forall x, 0 <= dot x (K x)) ->
  Steps (explicitEuler p) t l s t' s' -> energy M K F s <= energy M K F s'.
Proof.
  intros LM LK HI IM HX HC PM PK H. induction H as [t s|t dt l s s1 t2 s2 H H1 IH]; [lra|].
  destruct (C103_explicit _ _ _ _ _ _ LM LK HI IM HX H) as (_ & HX1 & E). eapply Rle_trans; [|apply IH; assumption].
  rewrite E, HC, dot_0_r. unfold quad. pose proof (PM (x_V s1 -v x_V s)). pose proof (PK (x_U s1 -v x_U s)). lra.
Qed.
End Euler.
Print Assumptions C103_implicit.
Print Assumptions C103_implicit_stable.
Print Assumptions C103_explicit.
Print Assumptions C103_explicit_grows.
Example C103_example : exists t' s', Steps (implicitEuler (osc2 1 1 4 (fun _ => 2))) 0 [6; 1/2] (mkX (S := VS_R) 1 0 0 None) t' s' /\
  linearProb (osc2 1 1 4 (fun t => 2)) /\ exactGmres (osc2 1 1 4 (fun t => 2)) /\
  energy (S := VS_R) (fun x => 1 * x) (fun x => 4 * x) 2 s' < energy (S := VS_R) (fun x => 1 * x) (fun x => 4 * x) 2 (mkX (S := VS_R) 1 0 0 None).
Proof.
  eexists _, _. split; [eapply StCons; [dev|eapply StCons; [dev|apply StNil]]|]. split; [apply osc2_linear|]. split; [apply osc2_gmres|]. rcbv. lra.
Qed.
Example C103_explicit_example : exists t' s', Steps (explicitEuler (osc 1 0 4 (fun _ => 0))) 0 [1/10; 1/10] (mkX (S := VS_R) 1 0 0 None) t' s' /\
  energy (S := VS_R) (fun x => 1 * x) (fun x => 4 * x) 0 s' = (26/25) * (26/25) * energy (S := VS_R) (fun x => 1 * x) (fun x => 4 * x) 0 (mkX (S := VS_R) 1 0 0 None).
Proof.
  eexists _, _. split; [eapply StCons; [dev|eapply StCons; [dev|apply StNil]]|]. rcbv. lra.
Qed.

(** ** C104 *)
Section RK4.
Context {S : VS}.
Variables (p : dprob S) (M C K Minv : S -> S) (F : S).
Hypothesis CO : constOps p M C K.
Hypothesis HF : forall t, dp_force p t = Yes F.
Hypothesis HI : dp_inv p M = Some Minv.
Hypothesis IM : forall x, M (Minv x) = x.
Hypothesis LM : linear M. Hypothesis LI : linear Minv. Hypothesis LK : linear K.
Hypothesis HC : forall x, C x = v0.
Hypothesis SM : forall x y, dot x (M y) = dot (M x) y.
Hypothesis SK : forall x y, dot x (K y) = dot (K x) y.
Lemma rk4_form t h s q s' :
  (x_inv s = None \/ x_inv s = Some Minv) -> rk4 p t h s = Done (Fin q) s' ->
  let w := x_V s in let a := Minv (F -v K (x_U s)) in
  q = Success /\ (x_inv s' = None \/ x_inv s' = Some Minv) /\
  x_U s' = x_U s +v h *v w +v (h^2/2) *v a -v (h^3/6) *v Minv (K w) -v (h^4/24) *v Minv (K a) /\
  x_V s' = w +v h *v a -v (h^2/2) *v Minv (K w) -v (h^3/6) *v Minv (K a) +v (h^4/24) *v Minv (K (Minv (K w))).
Proof.
  intros HX H w a. unfold rk4, massInverse in H. cbv zeta in H. rewrite (co_mass _ _ _ _ CO) in H. cbn [ask rbind] in H. rewrite HI in H.
  destruct HX as [HX|HX]; rewrite HX in H; destruct (dp_const p); cbn [rbind] in H; rewrite (co_damp _ _ _ _ CO), (co_jac _ _ _ _ CO), !HF in H; cbn [ask rbind] in H; injection H as <- <-;
    (split; [reflexivity|]; split; [cbn; auto|]); unfold a, w; cbn; split; rewrite !HC; repeat first [progress lin LI | progress lin LK]; vfield.
Qed.
(** Without damping, under a constant force: the exact change of the energy in one step. The two
    terms are the energies of the third and the fourth derivative of the motion. *)
Theorem C104_energy t h s q s' :
  (x_inv s = None \/ x_inv s = Some Minv) -> rk4 p t h s = Done (Fin q) s' ->
  q = Success /\ (x_inv s' = None \/ x_inv s' = Some Minv) /\
  let a := Minv (F -v K (x_U s)) in let N := fun x => Minv (K x) in
  energy M K F s' = energy M K F s - h^6 / 72 * quad M K (N (x_V s)) (N a) + h^8 / 576 * quad M K (N a) (N (N (x_V s))).
Proof.
  intros HX H. destruct (energy_diff M K F SM SK s s' LM LK) as [_ E]. cbv zeta in E. pose proof (rk4_form _ _ _ _ _ HX H) as X. cbv zeta in X. set (w := x_V s) in *. set (a := Minv (F -v K (x_U s))) in *.
  destruct X as (X1 & X2 & XU & XV). split; [exact X1|]. split; [exact X2|]. cbv zeta. rewrite E. clear E H.
  assert (MA : M a = F -v K (x_U s)) by apply IM.
  replace (K (x_U s) -v F) with (vopp (M a)) by (rewrite MA; vring). clearbody a w.
  set (nw := Minv (K w)) in *. set (na := Minv (K a)) in *. set (nn := Minv (K nw)) in *.
  assert (M1 : M nw = K w) by apply IM. assert (M2 : M na = K a) by apply IM. assert (M3 : M nn = K nw) by apply IM. clearbody nw na nn.
  replace (x_U s' -v x_U s) with (h *v w +v (h^2/2) *v a -v (h^3/6) *v nw -v (h^4/24) *v na) by (rewrite XU; vring).
  replace (x_V s' -v w) with (h *v a -v (h^2/2) *v nw -v (h^3/6) *v na +v (h^4/24) *v nn) by (rewrite XV; vring).
  unfold quad. lin LM. lin LK. autorewrite with dot. rewrite M1, M2, M3, !(dot_sym _ (M a)).
  assert (P1 : dot nw (M a) = dot a (K w)) by (rewrite SM, M1; apply dot_sym).
  assert (P2 : dot na (M a) = dot a (K a)) by (rewrite SM, M2; apply dot_sym).
  assert (P3 : dot nn (M a) = dot a (K nw)) by (rewrite SM, M3; apply dot_sym).
  assert (P4 : dot w (K a) = dot a (K w)) by (rewrite SK; apply dot_sym).
  assert (P5 : dot w (K na) = dot a (K nw)) by (rewrite SK, <- M1, <- SM, M2, SK; apply dot_sym).
  assert (P6 : dot nw (K a) = dot a (K nw)) by (rewrite SK; apply dot_sym).
  assert (P7 : dot nw (K w) = dot w (K nw)) by (rewrite SK; apply dot_sym).
  assert (P8 : dot na (K w) = dot a (K nw)) by (rewrite SK, (dot_sym _ (K na)); exact P5).
  assert (P9 : dot na (K a) = dot a (K na)) by (rewrite SK; apply dot_sym).
  assert (P10 : dot nn (K w) = dot nw (K nw)) by (rewrite <- M1, SM, M3; apply dot_sym).
  assert (P11 : dot nn (K a) = dot na (K nw)) by (rewrite <- M2, SM, M3; apply dot_sym).
  assert (P12 : dot nw (K na) = dot na (K nw)) by (rewrite SK; apply dot_sym).
  rewrite P1, P2, P3, P4, P5, P6, P7, P8, P9, P10, P11, P12. field.
Qed.
(** Hence the stability limit: if no frequency of the structure is above omega (omega^2 = [om]) and
    h omega <= sqrt 8, the energy does not grow over any number of steps. *)
Lemma form_cs (x y : S) : (forall z, 0 <= dot z (K z)) -> dot x (K y) * dot x (K y) <= dot x (K x) * dot y (K y).
Proof.
  intros PK. assert (Q : forall c, 0 <= dot x (K x) + 2 * c * dot x (K y) + c * c * dot y (K y)).
  { intros c. pose proof (PK (x +v c *v y)) as P. revert P. lin LK. autorewrite with dot. rewrite (SK y x), (dot_sym _ (K y) x). intros. lra. }
  destruct (Req_dec (dot y (K y)) 0) as [E|E].
  - destruct (Req_dec (dot x (K y)) 0) as [E1|E1]; [rewrite E, E1; lra|]. pose proof (Q (- (dot x (K x) + 1) / (2 * dot x (K y)))) as P. rewrite E in P.
    exfalso. revert P. match goal with |- 0 <= ?l -> _ => replace l with (-1) by (field; assumption) end. lra.
  - pose proof (PK y). pose proof (Q (- dot x (K y) / dot y (K y))) as P.
    assert (0 <= dot y (K y) * (dot x (K x) + 2 * (- dot x (K y) / dot y (K y)) * dot x (K y) + - dot x (K y) / dot y (K y) * (- dot x (K y) / dot y (K y)) * dot y (K y))) by (apply Rmult_le_pos; assumption).
    revert H0. match goal with |- 0 <= ?l -> _ => replace l with (dot x (K x) * dot y (K y) - dot x (K y) * dot x (K y)) by (field; assumption) end. lra.
Qed.
Theorem C104_stable t l s t' s' om :
  (x_inv s = None \/ x_inv s = Some Minv) -> (forall x, 0 <= dot x (M x)) -> (forall x, 0 <= dot x (K x)) ->
  0 <= om -> (forall x, dot x (K x) <= om * dot x (M x)) -> Forall (fun h => h * h * om <= 8) l ->
  Steps (rk4 p) t l s t' s' -> energy M K F s' <= energy M K F s.
Proof.
  intros HX PM PK PO HO P H. induction H as [t s|t h l s s1 t2 s2 H H1 IH]; [lra|]. inversion P; subst.
  destruct (C104_energy _ _ _ _ _ HX H) as (_ & HX1 & E). cbv zeta in E. eapply Rle_trans; [apply IH; assumption|]. rewrite E. clear E IH H H1.
  set (a := Minv (F -v K (x_U s))). set (nv := Minv (K (x_V s))). set (na := Minv (K a)). set (nn := Minv (K nv)).
  assert (A1 : dot na (K na) <= om * dot na (M na)) by apply HO.
  assert (A2 : dot nn (M nn) <= om * dot nv (K nv)).
  { assert (MN : M nn = K nv) by apply IM. pose proof (form_cs nn nv PK) as CS. pose proof (HO nn) as B. rewrite MN in B |- *. pose proof (PM nn) as P1. rewrite MN in P1. pose proof (PK nv).
    destruct (Req_dec (dot nn (K nv)) 0) as [Z|Z]; [rewrite Z; apply Rmult_le_pos; assumption|].
    apply Rmult_le_reg_l with (dot nn (K nv)); [lra|]. eapply Rle_trans; [exact CS|]. apply Rle_trans with (om * dot nn (K nv) * dot nv (K nv)); [apply Rmult_le_compat_r; assumption|lra]. }
  set (Q1 := quad M K nv na). set (Q2 := quad M K na nn).
  assert (A3 : Q2 <= om * Q1) by (unfold Q1, Q2, quad; lra).
  assert (A4 : 0 <= Q1) by (unfold Q1, quad; pose proof (PM na); pose proof (PK nv); lra).
  assert (A5 : h * h * Q2 <= 8 * Q1).
  { apply Rle_trans with (h * h * (om * Q1)); [apply Rmult_le_compat_l; [nra|assumption]|]. replace (h * h * (om * Q1)) with (h * h * om * Q1) by ring. apply Rmult_le_compat_r; assumption. }
  replace (h^6 / 72 * Q1) with (h^6 / 576 * (8 * Q1)) by field. replace (h^8 / 576 * Q2) with (h^6 / 576 * (h * h * Q2)) by field.
  assert (0 <= h^6 / 576). { replace (h^6 / 576) with ((h * h * h) * (h * h * h) / 576) by field. apply Rmult_le_pos; [|lra]. apply Rle_0_sqr. }
  assert (h^6 / 576 * (h * h * Q2) <= h^6 / 576 * (8 * Q1)) by (apply Rmult_le_compat_l; assumption). lra.
Qed.
End RK4.
Print Assumptions C104_energy.
Print Assumptions C104_stable.
Example C104_example : exists t' s', Steps (rk4 (osc 1 0 4 (fun _ => 2))) 0 [1; 1/2] (mkX (S := VS_R) 1 0 0 None) t' s' /\
  (forall x, dot (x : VS_R) (4 * x) <= 4 * dot (x : VS_R) (1 * x)) /\ 1 * 1 * 4 <= 8 /\
  energy (S := VS_R) (fun x => 1 * x) (fun x => 4 * x) 2 s' < energy (S := VS_R) (fun x => 1 * x) (fun x => 4 * x) 2 (mkX (S := VS_R) 1 0 0 None).
Proof.
  eexists _, _. split; [eapply StCons; [dev|eapply StCons; [dev|apply StNil]]|]. split; [intros; cbn; lra|]. split; [lra|]. rcbv. lra.
Qed.
(** beyond the limit one step multiplies the energy *)
Theorem C104_sharp : exists s', rk4 (osc 1 0 4 (fun _ => 0)) 0 2 (mkX (S := VS_R) 1 0 0 None) = Done (Fin Success) s' /\
  energy (S := VS_R) (fun x => 1 * x) (fun x => 4 * x) 0 s' > 50 * energy (S := VS_R) (fun x => 1 * x) (fun x => 4 * x) 0 (mkX (S := VS_R) 1 0 0 None).
Proof. eexists. split; [dev|]. rcbv. lra. Qed.
Print Assumptions C104_sharp.
