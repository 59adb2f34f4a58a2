(** Properties of the time integrators: C48-C51. *)
From Verif Require Import VS Status RunTac Static StaticRun Dynamic DynRun.
Local Open Scope R_scope.

(** the assembled matrices are linear; a finite answer of the sparse solver solves the system *)
Record linearProb {S : VS} (p : dprob S) : Prop := {
  lp_mass : forall t m, dp_mass p t = Yes m -> linear m;
  lp_damp : forall u t m, dp_damp p u t = Yes m -> linear m;
  lp_jac : forall u t m, dp_jac p u t = Yes m -> linear m;
  lp_solve : forall m b x, dp_solve p m b = Some x -> m x = b }.
Arguments lp_mass {S p}. Arguments lp_damp {S p}. Arguments lp_jac {S p}. Arguments lp_solve {S p}.
Ltac asks H := repeat (match type of H with context [ask ?a _] => destruct a eqn:? end; cbn [ask rbind] in H; try discriminate).
Ltac asksg := repeat (match goal with |- context [ask ?a _] => destruct a eqn:? end; cbn [ask rbind]).
Ltac lin L := repeat first [rewrite (lin_add _ L) | rewrite (lin_scale _ L) | rewrite (lin_sub L) | rewrite (lin_opp L) | rewrite (lin_0 L)].

(** ** C48 *)
(** A linear Newmark step that ends with finite vectors returns Success; the new displacement and
    velocity follow the Newmark formulas, and the momentum balance holds at t + dt with the mass
    and force there and the damping and stiffness assembled at t + dt in the predictor. *)
Theorem C48_newmark {S : VS} (p : dprob S) o t dt s q s' :
  linearProb p -> newmark p o t dt s = Done (Fin q) s' ->
  q = Success /\
  x_U s' = x_U s +v dt *v x_V s +v (dt * dt) *v ((1/2 - do_alpha o) *v x_A s +v do_alpha o *v x_A s') /\
  x_V s' = x_V s +v dt *v ((1 - do_delta o) *v x_A s +v do_delta o *v x_A s') /\
  exists M C K F, dp_mass p (t + dt) = Yes M /\ dp_force p (t + dt) = Yes F /\
    (let pred := x_U s +v dt *v x_V s +v ((1/2 - do_alpha o) * dt * dt) *v x_A s in
      dp_damp p pred (t + dt) = Yes C /\ dp_jac p pred (t + dt) = Yes K) /\
    M (x_A s') +v C (x_V s') +v K (x_U s') = F.
Proof.
  intros L H. unfold newmark in H. cbv zeta in H. asks H.
  match type of H with context [dp_solve p ?m ?b] => destruct (dp_solve p m b) as [A|] eqn:E end; [|discriminate].
  injection H as <- <-. cbn. split; [reflexivity|]. split; [vring|]. split; [vring|].
  do 4 eexists. do 2 (split; [reflexivity|]). split; [split; eassumption|].
  apply (lp_solve L) in E. cbv beta in E.
  match goal with |- ?m A +v ?c ?v +v ?k ?u = ?f =>
    pose proof (lp_damp L _ _ _ ltac:(eassumption) : linear c) as LC; pose proof (lp_jac L _ _ _ ltac:(eassumption) : linear k) as LK end.
  rewrite (lin_add _ LC _ (_ *v A)), (lin_scale _ LC), (lin_add _ LK _ (_ *v A)), (lin_scale _ LK).
  match type of E with _ = ?f -v ?ku -v ?cv => transitivity ((f -v ku -v cv) +v ku +v cv); [rewrite <- E; vring|vring] end.
Qed.
Print Assumptions C48_newmark.
(** the oscillator m a + c v + k u = f(t) in one dimension *)
Definition osc (m c k : R) (f : R -> R) : dprob VS_R := mkDP (S := VS_R)
  (fun _ => Yes (fun x => m * x)) (fun _ _ => Yes (fun x => c * x)) (fun _ _ => Yes (fun x => k * x))
  (fun t => Yes (f t)) (fun u t => Yes (f t - k * u)) true
  (fun A b => if Reqb (A 1) 0 then None else let x := b / A 1 in if Reqb (A x) b then Some x else None)
  (fun A => if Reqb (A 1) 0 then None else Some (fun x => x / A 1)) (fun _ _ => None).
Lemma osc_linear m c k f : linearProb (osc m c k f).
Proof.
  split; cbn.
  - intros t x H. injection H as <-. split; intros; cbn; ring.
  - intros u t x H. injection H as <-. split; intros; cbn; ring.
  - intros u t x H. injection H as <-. split; intros; cbn; ring.
  - intros A b x H. destruct (Reqb (A 1) 0); [discriminate|]. destruct (Reqb _ b) eqn:E; [|discriminate]. injection H as <-. apply Reqb_true. exact E.
Qed.
Definition trap (gamma : R) : dopts := mkDO (1/4) (1/2) gamma (1/10) (1/10) 5 false 1.
Example C48_example : exists s, newmark (osc 1 1 4 (fun t => 5 * t)) (trap 1) 2 1 (mkX (S := VS_R) 1 2 0 None) = Done (Fin Success) s /\
  x_A s = 2/5 /\ x_V s = 11/5 /\ x_U s = 31/10.
Proof. eexists. split; [dev|]. rcbv. repeat split; lra. Qed.

(** ** C49 *)
(** a sequence of steps with the given increments, all returning Success with finite vectors *)
Inductive Steps {S : VS} (f : R -> R -> xst S -> run (xst S) sans) : R -> list R -> xst S -> R -> xst S -> Prop :=
| StNil t s : Steps f t [] s t s
| StCons t dt l s s1 t2 s2 : f t dt s = Done (Fin Success) s1 -> Steps f (t + dt) l s1 t2 s2 -> Steps f t (dt :: l) s t2 s2.
(** mass, damping, stiffness do not depend on time or displacement *)
Record constOps {S : VS} (p : dprob S) (M C K : S -> S) : Prop := {
  co_mass : forall t, dp_mass p t = Yes M; co_damp : forall u t, dp_damp p u t = Yes C; co_jac : forall u t, dp_jac p u t = Yes K }.
Section Energy.
Context {S : VS}.
Variables (p : dprob S) (o : dopts) (M C K : S -> S) (F : S).
Hypothesis L : linearProb p.
Hypothesis CO : constOps p M C K.
Hypothesis HF : forall t, dp_force p t = Yes F.
Hypothesis Ho : do_alpha o = 1/4 /\ do_delta o = 1/2.
Hypothesis SM : forall x y, dot x (M y) = dot (M x) y.
Hypothesis SK : forall x y, dot x (K y) = dot (K x) y.
Definition energy (s : xst S) : R := 1/2 * dot (x_V s) (M (x_V s)) + 1/2 * dot (x_U s) (K (x_U s)) - dot F (x_U s).
Definition balanced (s : xst S) : Prop := M (x_A s) +v C (x_V s) +v K (x_U s) = F.
Lemma energy_step t dt s q s' : balanced s -> newmark p o t dt s = Done (Fin q) s' ->
  balanced s' /\ energy s' = energy s - dt * dot ((1/2) *v (x_V s +v x_V s')) (C ((1/2) *v (x_V s +v x_V s'))).
Proof.
  intros B H. destruct (C48_newmark p o t dt s q s' L H) as (_ & EU & EV & M' & C' & K' & F' & E1 & E2 & (E3 & E4) & E5).
  rewrite (co_mass _ _ _ _ CO) in E1. injection E1 as <-. rewrite HF in E2. injection E2 as <-.
  rewrite (co_damp _ _ _ _ CO) in E3. injection E3 as <-. rewrite (co_jac _ _ _ _ CO) in E4. injection E4 as <-.
  split; [exact E5|]. destruct Ho as [Ha Hd]. rewrite Ha in EU. rewrite Hd in EV. clear H Ha Hd.
  assert (LM := lp_mass L 0 M (co_mass _ _ _ _ CO 0)). assert (LC := lp_damp L v0 0 C (co_damp _ _ _ _ CO v0 0)). assert (LK := lp_jac L v0 0 K (co_jac _ _ _ _ CO v0 0)).
  unfold balanced in B. unfold energy. destruct s as [u v a i], s' as [u' v' a' i']. cbn in *.
  set (w := (1/2) *v (v +v v')).
  assert (HU : u' = u +v dt *v w) by (unfold w; rewrite EU, EV; vfield).
  assert (HV : v' = v +v (dt/2) *v (a +v a')) by (rewrite EV; vfield).
  assert (HW : C w = F -v (1/2) *v (M a +v M a') -v (1/2) *v (K u +v K u')).
  { unfold w. lin LC. transitivity ((1/2) *v ((M a +v C v +v K u) +v (M a' +v C v' +v K u')) -v (1/2) *v (M a +v M a') -v (1/2) *v (K u +v K u')); [vring|].
    rewrite B, E5. vfield. }
  assert (X1 : dot v' (M v') - dot v (M v) = 2 * dot w (M (v' -v v))).
  { unfold w. lin LM. autorewrite with dot. rewrite (SM v' v), (dot_sym _ (M v') v). field. }
  assert (X2 : dot u' (K u') - dot u (K u) = dot (u' -v u) (K u +v K u')).
  { autorewrite with dot. rewrite (SK u' u), (dot_sym _ (K u') u). ring. }
  assert (X3 : M (v' -v v) = (dt/2) *v (M a +v M a')).
  { replace (v' -v v) with ((dt/2) *v (a +v a')) by (rewrite HV; vring). lin LM. reflexivity. }
  assert (X4 : u' -v u = dt *v w) by (rewrite HU; vring).
  assert (X5 : dot F u' - dot F u = dt * dot w F) by (rewrite HU; autorewrite with dot; rewrite (dot_sym _ F w); ring).
  rewrite X3 in X1. rewrite X4 in X2. autorewrite with dot in X1, X2. rewrite HW. autorewrite with dot. lra.
Qed.
(** Average acceleration (alpha = 1/4, delta = 1/2), symmetric mass and stiffness, constant force,
    started with an acceleration that satisfies the momentum balance: over any number of steps of
    any lengths the energy is the same when there is no damping, and does not grow when the damping
    is nonnegative and time goes forward. *)
Theorem C49_energy t l s t' s' :
  balanced s -> Steps (newmark p o) t l s t' s' ->
  ((forall x, C x = v0) -> energy s' = energy s) /\
  ((forall x, 0 <= dot x (C x)) -> Forall (fun dt => 0 <= dt) l -> energy s' <= energy s).
Proof.
  intros B H. induction H as [t s|t dt l s s1 t2 s2 H H1 IH]; [split; intros; lra|].
  destruct (energy_step _ _ _ _ _ B H) as (B1 & E). destruct (IH B1) as (I1 & I2). split.
  - intros Z. rewrite (I1 Z), E, Z. autorewrite with dot. lra.
  - intros N P. inversion P; subst. specialize (I2 N H4). rewrite E in I2.
    pose proof (N ((1/2) *v (x_V s +v x_V s1))) as N1. assert (0 <= dt * dot ((1/2) *v (x_V s +v x_V s1)) (C ((1/2) *v (x_V s +v x_V s1)))) by (apply Rmult_le_pos; assumption). lra.
Qed.
End Energy.
Print Assumptions C49_energy.
(** two steps of different lengths of u'' + 4 u = 0 *)
Lemma osc_const m c k f : constOps (osc m c k f) (fun x => m * x) (fun x => c * x) (fun x => k * x).
Proof. split; reflexivity. Qed.
Example C49_example : exists t' s', Steps (newmark (osc 1 0 4 (fun _ => 0)) (trap 1)) 0 [1; 1/2] (mkX (S := VS_R) 1 0 (-4) None) t' s' /\
  balanced (S := VS_R) (fun x => 1 * x) (fun x => 0 * x) (fun x => 4 * x) 0 (mkX (S := VS_R) 1 0 (-4) None) /\
  x_U s' = -4/5 /\ energy (S := VS_R) (fun x => 1 * x) (fun x => 4 * x) 0 s' = 2.
Proof.
  eexists _, _. split; [eapply StCons; [dev|eapply StCons; [dev|apply StNil]]|]. split; [rcbv; lra|]. split; rcbv; lra.
Qed.

(** ** C50 *)
(** the matrix [m] is injective and the sparse solver solves every system with it *)
Definition solvable {S : VS} (p : dprob S) (m : S -> S) : Prop :=
  (forall x y, m x = m y -> x = y) /\ forall b, exists x, dp_solve p m b = Some x /\ m x = b.
Lemma solvable_zero {S : VS} (p : dprob S) m b : solvable p m -> linear m -> b = v0 -> dp_solve p m b = Some v0.
Proof. intros [I T] L ->. destruct (T v0) as (x & -> & E). f_equal. apply I. rewrite E, (lin_0 L). reflexivity. Qed.
Lemma lin_comb {S : VS} (A B C : S -> S) a b : linear A -> linear B -> linear C -> linear (fun x => A x +v a *v B x +v b *v C x).
Proof. intros LA LB LC. split; intros; rewrite ?(lin_add _ LA), ?(lin_add _ LB), ?(lin_add _ LC), ?(lin_scale _ LA), ?(lin_scale _ LB), ?(lin_scale _ LC); vring. Qed.
Lemma norm_v0 {S : VS} : norm (v0 : S) = 0.
Proof. apply norm_0. Qed.
Section SameStep.
Context {S : VS}.
Variables (p : dprob S) (o : dopts) (M C K : S -> S) (f : R -> S).
Hypothesis CO : constOps p M C K.
Hypothesis LM : linear M. Hypothesis LC : linear C. Hypothesis LK : linear K.
Hypothesis HF : forall t, dp_force p t = Yes (f t).
Hypothesis HR : forall u t, dp_res p u t = Yes (f t -v K u).
(** Newmark: at least two iterations allowed, positive tolerances *)
Theorem C50_newmark t dt s :
  solvable p (fun x => M x +v (do_delta o * dt) *v C x +v (dt * dt * do_alpha o) *v K x) ->
  (2 <= do_maxIt o)%nat -> 0 < do_tolU o -> 0 < do_tolF o -> (do_quasi o = true -> do_quasiIt o <> O) ->
  exists s', newmark p o t dt s = Done (Fin Success) s' /\ newmarkNL p o t dt s = Done (Fin Success) s'.
Proof.
  intros SV Hm HtU HtF HQ. set (lhs := fun x => _) in SV.
  assert (LL : linear lhs) by (apply lin_comb; assumption).
  unfold newmark, newmarkNL. cbv zeta. rewrite (co_mass _ _ _ _ CO), HF. cbn [ask rbind]. rewrite !(co_damp _ _ _ _ CO), (co_jac _ _ _ _ CO), HR. cbn [ask rbind].
  fold lhs. set (U := x_U s +v dt *v x_V s +v _ *v x_A s). set (V := x_V s +v _ *v x_A s).
  replace (U +v (do_alpha o * dt * dt) *v v0) with U by vring. replace (V +v (do_delta o * dt) *v v0) with V by vring.
  set (b := f (t + dt) -v K U -v C V). replace (b -v M v0) with b by (lin LM; vring).
  destruct (proj2 SV b) as (A & EA & LA). rewrite EA. eexists. split; [reflexivity|].
  set (r0 := if Reqb (norm b) 0 then 1 else norm b).
  assert (r0 <> 0) by (unfold r0; destruct (Reqb (norm b) 0) eqn:E; [lra|apply Reqb_false in E; exact E]).
  clearbody r0.
  assert (BM : forall i, badMod o i = false).
  { intros i. unfold badMod. destruct (do_quasi o); [|reflexivity]. specialize (HQ eq_refl). destruct (i =? 0)%nat; [reflexivity|].
    cbn. apply Nat.eqb_neq. exact HQ. }
  assert (IT : forall n i r s0, newmarkLoop p o t dt M r0 (Datatypes.S n) i C K r s0 =
    match dp_solve p lhs r with
    | None => Done (NonFin NotConverged) s0
    | Some dA =>
      let A := x_A s0 +v dA in let V := x_V s0 +v (do_delta o * dt) *v dA in let U := x_U s0 +v (do_alpha o * dt * dt) *v dA in
      let s1 := xU U (xV V (xA A s0)) in
      let updateNorm := if Reqb (norm A) 0 then norm dA else norm dA / norm A in
      let rhs := (f (t + dt) -v K U) -v C V -v M A in
      if Rltb updateNorm (do_tolU o) && Rltb (norm rhs / r0) (do_tolF o) then Done (Fin Success) s1
      else newmarkLoop p o t dt M r0 n (Datatypes.S i) C K rhs s1
    end).
  { intros n i r s0. cbn [newmarkLoop]. rewrite BM.
    destruct (renew o i); [rewrite (co_damp _ _ _ _ CO); cbn [ask rbind]; rewrite (co_jac _ _ _ _ CO)|]; cbn [ask rbind]; fold lhs; (destruct (dp_solve p lhs r); [|reflexivity]); cbv zeta; rewrite HR; reflexivity. }
  assert (RH : forall s0, x_A s0 = A -> x_V s0 = V +v (do_delta o * dt) *v A -> x_U s0 = U +v (do_alpha o * dt * dt) *v A ->
    (f (t + dt) -v K (x_U s0)) -v C (x_V s0) -v M (x_A s0) = v0).
  { intros s0 -> -> ->. lin LK. lin LC. transitivity (b -v lhs A); [unfold b, lhs; vring|rewrite LA; vring]. }
  destruct (do_maxIt o) as [|[|n]] eqn:EN; [lia|lia|].
  assert (FX : forall i r s0, x_A s0 = A -> x_V s0 = V +v (do_delta o * dt) *v A -> x_U s0 = U +v (do_alpha o * dt * dt) *v A -> r = v0 ->
    forall n, newmarkLoop p o t dt M r0 (Datatypes.S n) i C K r s0 = Done (Fin Success) s0).
  { intros i r s0 H1 H2 H3 -> m. rewrite IT, (solvable_zero _ _ _ SV LL eq_refl). cbv zeta.
    replace (x_A s0 +v v0) with (x_A s0) by vring. replace (x_V s0 +v _ *v v0) with (x_V s0) by vring. replace (x_U s0 +v _ *v v0) with (x_U s0) by vring.
    rewrite (RH s0 H1 H2 H3), norm_v0.
    replace (Rltb (if Reqb (norm (x_A s0)) 0 then 0 else 0 / norm (x_A s0)) (do_tolU o)) with true.
    2: { symmetry. apply Rltb_true. destruct (Reqb _ 0); [exact HtU|]. unfold Rdiv. rewrite Rmult_0_l. exact HtU. }
    replace (Rltb (0 / r0) (do_tolF o)) with true by (symmetry; apply Rltb_true; unfold Rdiv; rewrite Rmult_0_l; exact HtF).
    cbn [andb]. destruct s0; reflexivity. }
  match goal with |- newmarkLoop _ _ _ _ _ _ _ _ _ _ _ ?s0 = _ => set (s1 := s0) end.
  assert (K0 : newmarkLoop p o t dt M r0 (Datatypes.S (Datatypes.S n)) 0 C (fun x => x) b s1 = newmarkLoop p o t dt M r0 (Datatypes.S (Datatypes.S n)) 0 C K b s1).
  { cbn [newmarkLoop]. unfold renew. cbn [Nat.eqb]. rewrite orb_true_r. cbn [orb]. rewrite (co_damp _ _ _ _ CO). reflexivity. }
  rewrite K0, IT, EA. cbv zeta.
  set (s2 := xU _ (xV _ (xA _ s1))).
  assert (Q1 : x_A s2 = A) by (cbn; vring). assert (Q2 : x_V s2 = V +v (do_delta o * dt) *v A) by reflexivity. assert (Q3 : x_U s2 = U +v (do_alpha o * dt * dt) *v A) by reflexivity.
  assert (Q4 := RH s2 Q1 Q2 Q3). cbn in Q4. cbn [s1 x_U x_V x_A xU xV xA].
  assert (ES : s2 = xA A (xU (U +v (do_alpha o * dt * dt) *v A) (xV (V +v (do_delta o * dt) *v A) (xV V (xU U s))))).
  { unfold s2, s1. unfold xU, xV, xA. cbn. f_equal. vring. }
  rewrite <- ES. match goal with |- (if ?c then _ else _) = _ => destruct c end; [reflexivity|].
  apply FX; try assumption.
Qed.
(** Runge-Kutta: the runs are the same, whatever the callbacks and the inverse do *)
Theorem C50_rk4 t dt s : rk4NL p t dt s = rk4 p t dt s.
Proof.
  unfold rk4NL, rk4. cbv zeta. rewrite (co_mass _ _ _ _ CO). cbn [ask rbind]. destruct (massInverse p M s) as [i s1|]; [|reflexivity]. cbn [rbind].
  rewrite (co_damp _ _ _ _ CO), (co_jac _ _ _ _ CO), !HF, HR. cbn [ask rbind]. destruct i as [i|]; [|reflexivity].
  rewrite HR. cbn [ask rbind]. rewrite HR. cbn [ask rbind]. rewrite HR. cbn [ask rbind]. reflexivity.
Qed.
(** explicit Euler: only for the opposite residual *)
Theorem C50_explicit_partial t dt s p' :
  dp_mass p' = dp_mass p -> dp_damp p' = dp_damp p -> dp_jac p' = dp_jac p -> dp_const p' = dp_const p -> dp_inv p' = dp_inv p ->
  (forall u t, dp_res p' u t = Yes (K u -v f t)) -> explicitEulerNL p' t dt s = explicitEuler p t dt s.
Proof.
  intros E1 E2 E3 E4 E5 HR'. unfold explicitEulerNL, explicitEuler, massInverse. rewrite E1, E2, E4, E5. rewrite (co_mass _ _ _ _ CO). cbn [ask rbind]. cbv zeta.
  assert (X : vopp (K (x_U s) -v f t) -v C (x_V s) = f t -v K (x_U s) -v C (x_V s)) by (unfold vopp; vring).
  destruct (dp_const p), (x_inv s); destruct (dp_inv p M); cbn [rbind]; rewrite (co_damp _ _ _ _ CO), (co_jac _ _ _ _ CO), HF, HR'; cbn [ask rbind]; rewrite ?X; reflexivity.
Qed.
End SameStep.
Print Assumptions C50_newmark.
Print Assumptions C50_rk4.
Print Assumptions C50_explicit_partial.
(** u'' + u' + 4 u = 5 t: both variants of Newmark; the matrix is 1 + 1/2 + 1 *)
Lemma osc_solvable m c k f (A : R -> R) : (exists d, d <> 0 /\ forall x, A x = d * x) -> solvable (osc m c k f) (A : VS_R -> VS_R).
Proof.
  intros (d & Hd & HA). split; cbn.
  - intros x y H. rewrite !HA in H. apply (Rmult_eq_reg_l d); assumption.
  - intros b. exists (b / d). rewrite !HA, Rmult_1_r. rewrite (proj2 (Reqb_false d 0) Hd). assert (E : d * (b / d) = b) by (field; exact Hd).
    rewrite (proj2 (Reqb_true _ _) E). auto.
Qed.
Example C50_newmark_example : exists s, newmarkNL (osc 1 1 4 (fun t => 5 * t)) (trap 1) 2 1 (mkX (S := VS_R) 1 2 0 None) = Done (Fin Success) s /\
  x_A s = 2/5 /\ x_U s = 31/10 /\
  solvable (osc 1 1 4 (fun t => 5 * t)) ((fun x : R => 1 * x + (do_delta (trap 1) * 1) * (1 * x) + (1 * 1 * do_alpha (trap 1)) * (4 * x)) : VS_R -> VS_R).
Proof.
  eexists. split; [dev|]. split; [rcbv; lra|]. split; [rcbv; lra|].
  apply (osc_solvable _ _ _ _ (fun x : R => 1 * x + (do_delta (trap 1) * 1) * (1 * x) + (1 * 1 * do_alpha (trap 1)) * (4 * x))).
  exists (5/2). cbn. split; [lra|intros; lra].
Qed.
(** Refuted: explicit Euler: the nonlinear variant accelerates against the residual. Bathe: from
    rest without load the linear variant stays at rest with Success, the nonlinear one divides zero
    by zero in its test and never converges. *)
Theorem C50_refuted : exists s1 s2 s3 s4,
  explicitEuler (osc 1 0 4 (fun _ => 0)) 0 1 (mkX (S := VS_R) 1 0 0 None) = Done (Fin Success) s1 /\ x_V s1 = -4 /\
  explicitEulerNL (osc 1 0 4 (fun _ => 0)) 0 1 (mkX (S := VS_R) 1 0 0 None) = Done (Fin Success) s2 /\ x_V s2 = 4 /\
  bathe (osc 1 0 4 (fun _ => 0)) (trap (1/2)) 0 1 (mkX (S := VS_R) 0 0 0 None) = Done (Fin Success) s3 /\ x_U s3 = 0 /\
  batheNL (osc 1 0 4 (fun _ => 0)) (trap (1/2)) 0 1 (mkX (S := VS_R) 0 0 0 None) = Done (Fin NotConverged) s4 /\ x_U s4 = 0.
Proof.
  do 4 eexists. split; [dev|]. split; [rcbv; lra|]. split; [dev|]. split; [rcbv; lra|]. split; [dev|]. split; [rcbv; lra|]. split; [dev|]. rcbv. lra.
Qed.
Print Assumptions C50_refuted.
