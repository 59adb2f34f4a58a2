(** Properties of the time integrators: C92 (Wilson's method: the acceleration), C93 (nonlinear
    steps are Newton iterations, with "Quasi" the matrices are kept for QuasiIterations iterations). *)
From Verif Require Import VS Status RunTac Static StaticRun Dynamic DynRun Props_Dynamic Props_Dynamic2 Props_Dynamic4 Props_Dynamic6.
Local Open Scope R_scope.

(** ** C92 *)
(** [newmarkFrom o h s u v a]: (u, v, a) is reached from s by Newmark's formulas over the time h *)
Definition newmarkFrom {S : VS} (o : dopts) (h : R) (s : xst S) (u v a : S) : Prop :=
  u = x_U s +v h *v x_V s +v (h * h) *v ((1/2 - do_alpha o) *v x_A s +v do_alpha o *v a) /\
  v = x_V s +v h *v ((1 - do_delta o) *v x_A s +v do_delta o *v a).
(** Linear: the new acceleration lies on the line through the old one and the one which satisfies
    the momentum balance at the time t + gamma dt. Missing for the full claim: velocity and
    displacement do not follow Newmark's formulas (see C53_refuted); they are given as they are. *)
Theorem C92_wilson_linear_partial {S : VS} (p : dprob S) o t dt s q s' :
  linearProb p -> wilson p o t dt s = Done (Fin q) s' ->
  q = Success /\ do_gamma o <> 0 /\
  exists u v a M C K F w, newmarkFrom o (do_gamma o * dt) s u v a /\
    dp_mass p (t + do_gamma o * dt) = Yes M /\ dp_force p (t + do_gamma o * dt) = Yes F /\
    dp_damp p w (t + do_gamma o * dt) = Yes C /\ dp_jac p w (t + do_gamma o * dt) = Yes K /\
    M a +v C v +v K u = F /\
    do_gamma o *v (x_A s' -v x_A s) = a -v x_A s /\
    x_V s' = x_V s +v (do_delta o * dt) *v x_A s' /\ x_U s' = x_U s +v (do_alpha o * dt * dt) *v x_A s'.
Proof.
  intros L H. unfold wilson in H. destruct (newmark p o t (do_gamma o * dt) s) as [r s1|] eqn:E; [|discriminate].
  cbv zeta in H. destruct r as [q1|q1]; [|discriminate]. destruct (Reqb (do_gamma o) 0) eqn:G; [discriminate|]. apply Reqb_false in G.
  injection H as <- <-. split; [reflexivity|]. split; [exact G|].
  destruct (C48_newmark p o t _ s q1 s1 L E) as (_ & EU & EV & M & C & K & F & E1 & E2 & [E3 E4] & E5).
  eexists (x_U s1), (x_V s1), (x_A s1), M, C, K, F, _. split; [split; [exact EU|exact EV]|]. split; [exact E1|]. split; [exact E2|].
  split; [exact E3|]. split; [exact E4|]. split; [exact E5|]. cbn [x_A x_V x_U xA xV xU xInv]. split; [|split; vring].
  vfield; exact G.
Qed.
Print Assumptions C92_wilson_linear_partial.
Example C92_linear_example : exists s', wilson (osc 1 1 4 (fun t => 5 * t)) (trap (7/5)) 2 1 (mkX (S := VS_R) 1 2 0 None) = Done (Fin Success) s' /\
  x_A s' <> 0 /\ linearProb (osc 1 1 4 (fun t => 5 * t)).
Proof. eexists. split; [dev|]. split; [rcbv; lra|apply osc_linear]. Qed.
(** Nonlinear: the same with the balance up to TolF, if the Newmark step over gamma dt succeeded;
    velocity and displacement follow Newmark's formulas. The status says Success in any case
    (C76_refuted); this is missing. *)
Theorem C92_wilson_nonlinear_partial {S : VS} (p : dprob S) o t dt s s1 q s' :
  newmarkNL p o t (do_gamma o * dt) s = Done (Fin Success) s1 -> wilsonNL p o t dt s = Done (Fin q) s' ->
  q = Success /\ newmarkFrom o dt s (x_U s') (x_V s') (x_A s') /\
  exists u v a M C R1 w r0, newmarkFrom o (do_gamma o * dt) s u v a /\
    dp_mass p (t + do_gamma o * dt) = Yes M /\ dp_damp p w (t + do_gamma o * dt) = Yes C /\ dp_res p u (t + do_gamma o * dt) = Yes R1 /\
    norm (R1 -v C v -v M a) < do_tolF o * r0 /\
    (exists C0 R0 u0 v0', u0 = x_U s +v (do_gamma o * dt) *v x_V s +v ((1/2 - do_alpha o) * (do_gamma o * dt) * (do_gamma o * dt)) *v x_A s /\
       v0' = x_V s +v ((1 - do_delta o) * (do_gamma o * dt)) *v x_A s /\ dp_damp p u0 (t + do_gamma o * dt) = Yes C0 /\ dp_res p u0 (t + do_gamma o * dt) = Yes R0 /\
       r0 = if Reqb (norm (R0 -v C0 v0' -v M v0)) 0 then 1 else norm (R0 -v C0 v0' -v M v0)) /\
    do_gamma o *v (x_A s' -v x_A s) = a -v x_A s.
Proof.
  intros HN H. unfold wilsonNL in H. rewrite HN in H. cbv zeta in H. destruct (Reqb (do_gamma o) 0) eqn:G; [discriminate|]. apply Reqb_false in G.
  injection H as <- <-. split; [reflexivity|]. cbn [x_A x_V x_U xA xV xU xInv]. split; [split; vring|].
  destruct (C76_newmark p o t _ s s1 HN) as (EU & EV & M & C0 & R0 & C & R1 & w & E1 & E2 & E3 & E4 & E5 & E6).
  exists (x_U s1), (x_V s1), (x_A s1), M, C, R1, w. eexists. split; [split; [exact EU|exact EV]|]. split; [exact E1|]. split; [exact E4|]. split; [exact E5|].
  split; [exact E6|]. split.
  - exists C0, R0. do 2 eexists. split; [reflexivity|]. split; [reflexivity|]. split; [exact E2|]. split; [exact E3|]. reflexivity.
  - vfield; exact G.
Qed.
Print Assumptions C92_wilson_nonlinear_partial.
Example C92_nonlinear_example : exists s1 s', let o := mkDO (1/4) (1/2) (7/5) (1/2) (1/2) 9 false 1 in
  newmarkNL duffing o 0 (7/5 * 1) (mkX (S := VS_R) 0 0 0 None) = Done (Fin Success) s1 /\
  wilsonNL duffing o 0 1 (mkX (S := VS_R) 0 0 0 None) = Done (Fin Success) s' /\ x_A s' <> 0 /\ x_A s' <> x_A s1.
Proof. eexists _, _. cbv zeta. split; [dev|]. split; [dev|]. split; rcbv; lra. Qed.

(** ** C93 *)
(** [kept o i]: the iteration whose displacement the matrices of iteration i belong to: i itself, or
    with "Quasi" the last multiple of QuasiIterations *)
Definition kept (o : dopts) (i : nat) : nat := if do_quasi o then (do_quasiIt o * (i / do_quasiIt o))%nat else i.
(** [newtonRun p o tn U G T x0 x1 q]: from x0 some iterates x(0), ..., x(n) lead to x1. G C K relates
    an iterate to the next for damping C and stiffness K, which are those of the iterate [kept] at
    the time tn. T is the stopping test. Success: the test holds the first time after n iterations,
    n <= MaxIter; NotConverged: it does not hold after any of the MaxIter iterations. *)
Definition newtonRun {S : VS} {X} (p : dprob S) (o : dopts) (tn : R) (U : X -> S) (G : (S -> S) -> (S -> S) -> X -> X -> Prop) (T : X -> X -> Prop) (x0 x1 : X) (q : status) : Prop :=
  exists n (x : nat -> X), x 0%nat = x0 /\ x n = x1 /\
    (forall i, (i < n)%nat -> exists C K, dp_damp p (U (x (kept o i))) tn = Yes C /\ dp_jac p (U (x (kept o i))) tn = Yes K /\ G C K (x i) (x (Datatypes.S i))) /\
    (forall i, (Datatypes.S i < n)%nat -> ~ T (x i) (x (Datatypes.S i))) /\
    (q = Success /\ (n <= do_maxIt o)%nat /\ (exists m, n = Datatypes.S m /\ T (x m) (x n)) \/
     q = NotConverged /\ n = do_maxIt o /\ forall m, n = Datatypes.S m -> ~ T (x m) (x n)).

Lemma kept_keep o i : badMod o (Datatypes.S i) = false -> renew o (Datatypes.S i) = false -> kept o (Datatypes.S i) = kept o i.
Proof.
  unfold badMod, renew, kept. destruct (do_quasi o); [|discriminate]. intros B R. cbn [negb orb andb] in *.
  change ((Datatypes.S i =? 0)%nat) with false in *. cbn [negb orb andb] in *. apply Nat.eqb_neq in B, R.
  set (k := do_quasiIt o) in *. f_equal.
  pose proof (Nat.div_mod (Datatypes.S i) k B) as D. pose proof (Nat.mod_upper_bound (Datatypes.S i) k B) as Bd.
  apply (Nat.div_unique i k (Datatypes.S i / k) (Datatypes.S i mod k - 1)); lia.
Qed.
Lemma kept_renew o i : badMod o i = false -> renew o i = true -> kept o i = i.
Proof.
  unfold badMod, renew, kept. destruct (do_quasi o); [|reflexivity]. intros B R. cbn [negb orb andb] in *.
  destruct (i =? 0)%nat eqn:E; [apply Nat.eqb_eq in E; subst i|].
  - destruct (do_quasiIt o) as [|k]; [reflexivity|]. rewrite Nat.div_small by lia. lia.
  - cbn [negb orb andb] in *. apply Nat.eqb_neq in B. apply Nat.eqb_eq in R.
    pose proof (Nat.div_mod i (do_quasiIt o) B). lia.
Qed.
Lemma kept_le o i : (kept o i <= i)%nat.
Proof. unfold kept. destruct (do_quasi o); [|lia]. destruct (do_quasiIt o) as [|k]; [lia|]. apply Nat.mul_div_le. lia. Qed.

(** a loop of the shape all nonlinear steps have *)
Lemma loop_trace {S : VS} {X} (p : dprob S) (o : dopts) (tn : R) (U : X -> S) G (T : X -> X -> Prop)
  (loop : nat -> nat -> (S -> S) -> (S -> S) -> X -> run (xst S) sans) (fin : X -> xst S -> Prop) q s' :
  (forall i C K x, loop O i C K x = Done (Fin q) s' -> q = NotConverged /\ fin x s') ->
  (forall n i C K x, loop (Datatypes.S n) i C K x = Done (Fin q) s' -> badMod o i = false /\
     exists C' K' x', (if renew o i then dp_damp p (U x) tn = Yes C' /\ dp_jac p (U x) tn = Yes K' else C' = C /\ K' = K) /\ G C' K' x x' /\
       (T x x' /\ q = Success /\ fin x' s' \/ ~ T x x' /\ loop n (Datatypes.S i) C' K' x' = Done (Fin q) s')) ->
  forall C K x0, loop (do_maxIt o) O C K x0 = Done (Fin q) s' -> exists x1, newtonRun p o tn U G T x0 x1 q /\ fin x1 s'.
Proof.
  intros H0 HS.
  assert (X1 : forall n i C K x, (n + i = do_maxIt o)%nat ->
    (forall k, (k < i)%nat -> exists C K, dp_damp p (U (x (kept o k))) tn = Yes C /\ dp_jac p (U (x (kept o k))) tn = Yes K /\ G C K (x k) (x (Datatypes.S k))) ->
    (forall k, (k < i)%nat -> ~ T (x k) (x (Datatypes.S k))) ->
    (forall k, i = Datatypes.S k -> dp_damp p (U (x (kept o k))) tn = Yes C /\ dp_jac p (U (x (kept o k))) tn = Yes K) ->
    loop n i C K (x i) = Done (Fin q) s' -> exists x1, newtonRun p o tn U G T (x O) x1 q /\ fin x1 s').
  { induction n as [|n IH]; intros i C K x Hn HG HT HK H.
    - destruct (H0 _ _ _ _ H) as [-> F]. exists (x i). split; [|exact F]. exists i, x. split; [reflexivity|]. split; [reflexivity|]. split; [exact HG|].
      split; [intros k Hk; apply HT; lia|]. right. split; [reflexivity|]. split; [lia|]. intros m ->. apply HT. lia.
    - destruct (HS _ _ _ _ _ H) as (B & C' & K' & x' & HR & HG' & HE).
      set (y := fun k => if (k <=? i)%nat then x k else x').
      assert (Y1 : forall k, (k <= i)%nat -> y k = x k) by (intros k Hk; unfold y; apply Nat.leb_le in Hk; rewrite Hk; reflexivity).
      assert (Y2 : y (Datatypes.S i) = x') by (unfold y; replace (Datatypes.S i <=? i)%nat with false by (symmetry; apply Nat.leb_gt; lia); reflexivity).
      assert (Y0 : y O = x O) by (apply Y1; lia).
      assert (HK' : dp_damp p (U (x (kept o i))) tn = Yes C' /\ dp_jac p (U (x (kept o i))) tn = Yes K').
      { destruct (renew o i) eqn:R.
        - rewrite (kept_renew o i B R). exact HR.
        - destruct HR as [-> ->]. destruct i as [|k].
          + unfold renew in R. cbn in R. rewrite orb_true_r in R. discriminate.
          + rewrite (kept_keep o k B R). apply HK. reflexivity. }
      assert (YG : forall k, (k < Datatypes.S i)%nat -> exists C K, dp_damp p (U (y (kept o k))) tn = Yes C /\ dp_jac p (U (y (kept o k))) tn = Yes K /\ G C K (y k) (y (Datatypes.S k))).
      { intros k Hk. rewrite (Y1 (kept o k)) by (pose proof (kept_le o k); lia). rewrite (Y1 k) by lia. destruct (Nat.eq_dec k i) as [->|Ne].
        - rewrite Y2. exists C', K'. destruct HK' as [A1 A2]. auto.
        - rewrite (Y1 (Datatypes.S k)) by lia. apply HG. lia. }
      assert (YT : forall k, (k < i)%nat -> ~ T (y k) (y (Datatypes.S k))).
      { intros k Hk. rewrite !Y1 by lia. apply HT. exact Hk. }
      destruct HE as [(Ht & -> & F)|[Ht HL]].
      + exists x'. split; [|exact F]. exists (Datatypes.S i), y. split; [exact Y0|]. split; [exact Y2|]. split; [exact YG|].
        split; [intros k Hk; apply YT; lia|]. left. split; [reflexivity|]. split; [lia|]. exists i. split; [reflexivity|]. rewrite Y2, Y1 by lia. exact Ht.
      + rewrite <- Y0. apply (IH (Datatypes.S i) C' K' y); [lia|exact YG| | |rewrite Y2; exact HL].
        * intros k Hk. destruct (Nat.eq_dec k i) as [->|Ne]; [rewrite Y2, Y1 by lia; exact Ht|apply YT; lia].
        * intros k Hk. injection Hk as <-. rewrite (Y1 (kept o i)) by apply kept_le. exact HK'. }
  intros C K x0 H. destruct (X1 (do_maxIt o) O C K (fun _ => x0)) as (x1 & R1 & F1); try (intros; lia).
  - exact H.
  - exists x1. split; assumption.
Qed.

(** an iterate of Newmark's and of the implicit Euler method: displacement, velocity, acceleration
    (or residual vector) and right-hand side *)
Record iter (S : VS) (Z : Type) := mkIt { it_U : S; it_V : S; it_A : S; it_r : Z }.
Arguments mkIt {S Z}. Arguments it_U {S Z}. Arguments it_V {S Z}. Arguments it_A {S Z}. Arguments it_r {S Z}.

(** A nonlinear Newmark step that ends with finite values: a Newton iteration for the accelerations,
    from the predictor with zero acceleration, at the time t + dt. *)
Theorem C93_newmark {S : VS} (p : dprob S) o t dt s q s' :
  newmarkNL p o t dt s = Done (Fin q) s' ->
  exists M C0 R0 r, let h := t + dt in
    let U0 := x_U s +v dt *v x_V s +v ((1/2 - do_alpha o) * dt * dt) *v x_A s in
    let V0 := x_V s +v ((1 - do_delta o) * dt) *v x_A s in
    let b0 := R0 -v C0 V0 -v M v0 in
    dp_mass p h = Yes M /\ dp_damp p U0 h = Yes C0 /\ dp_res p U0 h = Yes R0 /\
    newtonRun p o h it_U
      (fun C K x x' => exists d R1, dp_solve p (fun y => M y +v (do_delta o * dt) *v C y +v (dt * dt * do_alpha o) *v K y) (it_r x) = Some d /\
         it_A x' = it_A x +v d /\ it_V x' = it_V x +v (do_delta o * dt) *v d /\ it_U x' = it_U x +v (do_alpha o * dt * dt) *v d /\
         dp_res p (it_U x') h = Yes R1 /\ it_r x' = R1 -v C (it_V x') -v M (it_A x'))
      (fun x x' => (if Reqb (norm (it_A x')) 0 then norm (it_A x' -v it_A x) else norm (it_A x' -v it_A x) / norm (it_A x')) < do_tolU o /\
         norm (it_r x') / (if Reqb (norm b0) 0 then 1 else norm b0) < do_tolF o)
      (mkIt U0 V0 v0 b0) (mkIt (x_U s') (x_V s') (x_A s') r) q.
Proof.
  intros H. unfold newmarkNL in H. cbv zeta in H.
  set (U0 := x_U s +v dt *v x_V s +v ((1 / 2 - do_alpha o) * dt * dt) *v x_A s +v (do_alpha o * dt * dt) *v v0) in *.
  set (V0 := x_V s +v ((1 - do_delta o) * dt) *v x_A s +v (do_delta o * dt) *v v0) in *.
  assert (EU : U0 = x_U s +v dt *v x_V s +v ((1 / 2 - do_alpha o) * dt * dt) *v x_A s) by (unfold U0; vring).
  assert (EV : V0 = x_V s +v ((1 - do_delta o) * dt) *v x_A s) by (unfold V0; vring).
  destruct (dp_mass p (t + dt)) as [M| |] eqn:EM; cbn [ask rbind] in H; try discriminate.
  destruct (dp_damp p U0 (t + dt)) as [C0| |] eqn:EC; cbn [ask rbind] in H; try discriminate.
  destruct (dp_res p U0 (t + dt)) as [R0| |] eqn:ER; cbn [ask rbind] in H; try discriminate.
  exists M, C0, R0.
  cbv zeta. rewrite <- EU, <- EV. set (b0 := R0 -v C0 V0 -v M v0) in *. set (r0 := if Reqb (norm b0) 0 then 1 else norm b0) in *.
  set (c := x_inv s).
  destruct (loop_trace p o (t + dt) it_U
      (fun C K (x x' : iter S S) => exists d R1, dp_solve p (fun y => M y +v (do_delta o * dt) *v C y +v (dt * dt * do_alpha o) *v K y) (it_r x) = Some d /\
         it_A x' = it_A x +v d /\ it_V x' = it_V x +v (do_delta o * dt) *v d /\ it_U x' = it_U x +v (do_alpha o * dt * dt) *v d /\
         dp_res p (it_U x') (t + dt) = Yes R1 /\ it_r x' = R1 -v C (it_V x') -v M (it_A x'))
      (fun x x' => (if Reqb (norm (it_A x')) 0 then norm (it_A x' -v it_A x) else norm (it_A x' -v it_A x) / norm (it_A x')) < do_tolU o /\
         norm (it_r x') / r0 < do_tolF o)
      (fun n i C K x => newmarkLoop p o t dt M r0 n i C K (it_r x) (mkX (it_U x) (it_V x) (it_A x) c))
      (fun x s' => s' = mkX (it_U x) (it_V x) (it_A x) c) q s') with (C := C0) (K := fun x : S => x) (x0 := mkIt U0 V0 v0 b0) as (x1 & HR & HF).
  - intros i C K x HL. cbn in HL. injection HL as <- <-. auto.
  - intros n i C K x HL. cbn [newmarkLoop] in HL. cbv zeta in HL. destruct (badMod o i); [discriminate|]. split; [reflexivity|].
    cbn [x_U x_V x_A] in HL.
    assert (Q : forall C' K', match dp_solve p (fun y => M y +v (do_delta o * dt) *v C' y +v (dt * dt * do_alpha o) *v K' y) (it_r x) with
      | Some dA => run! (Rs, s2) := ask (dp_res p (it_U x +v (do_alpha o * dt * dt) *v dA) (t + dt)) (xU (it_U x +v (do_alpha o * dt * dt) *v dA) (xV (it_V x +v (do_delta o * dt) *v dA) (xA (it_A x +v dA) (mkX (it_U x) (it_V x) (it_A x) c)))) in
          if Rltb (if Reqb (norm (it_A x +v dA)) 0 then norm dA else norm dA / norm (it_A x +v dA)) (do_tolU o) && Rltb (norm (Rs -v C' (it_V x +v (do_delta o * dt) *v dA) -v M (it_A x +v dA)) / r0) (do_tolF o)
          then Done (Fin Success) s2 else newmarkLoop p o t dt M r0 n (Datatypes.S i) C' K' (Rs -v C' (it_V x +v (do_delta o * dt) *v dA) -v M (it_A x +v dA)) s2
      | None => Done (NonFin NotConverged) (mkX (it_U x) (it_V x) (it_A x) c) end = Done (Fin q) s' ->
      exists x', (exists d R1, dp_solve p (fun y => M y +v (do_delta o * dt) *v C' y +v (dt * dt * do_alpha o) *v K' y) (it_r x) = Some d /\
         it_A x' = it_A x +v d /\ it_V x' = it_V x +v (do_delta o * dt) *v d /\ it_U x' = it_U x +v (do_alpha o * dt * dt) *v d /\
         dp_res p (it_U x') (t + dt) = Yes R1 /\ it_r x' = R1 -v C' (it_V x') -v M (it_A x')) /\
       (((if Reqb (norm (it_A x')) 0 then norm (it_A x' -v it_A x) else norm (it_A x' -v it_A x) / norm (it_A x')) < do_tolU o /\
         norm (it_r x') / r0 < do_tolF o) /\ q = Success /\ s' = mkX (it_U x') (it_V x') (it_A x') c \/
        ~ ((if Reqb (norm (it_A x')) 0 then norm (it_A x' -v it_A x) else norm (it_A x' -v it_A x) / norm (it_A x')) < do_tolU o /\
         norm (it_r x') / r0 < do_tolF o) /\ newmarkLoop p o t dt M r0 n (Datatypes.S i) C' K' (it_r x') (mkX (it_U x') (it_V x') (it_A x') c) = Done (Fin q) s')).
    { clear HL. intros C' K' HL. destruct (dp_solve p _ _) as [d|]; [|discriminate].
      destruct (dp_res p (it_U x +v (do_alpha o * dt * dt) *v d) (t + dt)) as [R1| |] eqn:E1; cbn [ask rbind] in HL; try discriminate.
      exists (mkIt (it_U x +v (do_alpha o * dt * dt) *v d) (it_V x +v (do_delta o * dt) *v d) (it_A x +v d) (R1 -v C' (it_V x +v (do_delta o * dt) *v d) -v M (it_A x +v d))).
      cbn [it_U it_V it_A it_r]. split; [exists d, R1; auto 10|].
      replace (it_A x +v d -v it_A x) with d by vring.
      match type of HL with (if ?b then _ else _) = _ => destruct b eqn:ET end.
      - left. apply andb_true_iff in ET as [T1 T2]. apply Rltb_true in T1, T2. injection HL as <- <-. auto.
      - right. split; [|exact HL]. intros [T1 T2]. apply Rltb_true in T1, T2. rewrite T1, T2 in ET. discriminate. }
    destruct (renew o i).
    + destruct (dp_damp p (it_U x) (t + dt)) as [C1| |] eqn:E1; cbn [ask rbind x_U] in HL; try discriminate.
      destruct (dp_jac p (it_U x) (t + dt)) as [K1| |] eqn:E2; cbn [ask rbind] in HL; try discriminate.
      destruct (Q C1 K1 HL) as (x' & Q1 & Q2). exists C1, K1, x'. auto.
    + cbn [rbind] in HL. destruct (Q C K HL) as (x' & Q1 & Q2). exists C, K, x'. auto.
  - exact H.
  - exists (it_r x1). split; [exact EM|]. split; [exact EC|]. split; [exact ER|]. rewrite HF. cbn [x_U x_V x_A]. destruct x1. exact HR.
Qed.
Print Assumptions C93_newmark.
Definition quasiOpts (b : bool) := mkDO (1/4) (1/2) 1 (1/4) (1/4) 9 b 2.
(** with and without "Quasi" the step takes different ways *)
Example C93_newmark_example : exists s1 s2, newmarkNL duffing (quasiOpts false) 0 1 (mkX (S := VS_R) 0 0 0 None) = Done (Fin Success) s1 /\
  newmarkNL duffing (quasiOpts true) 0 1 (mkX (S := VS_R) 0 0 0 None) = Done (Fin Success) s2 /\ x_A s1 <> x_A s2.
Proof. eexists _, _. split; [dev|]. split; [dev|]. rcbv. lra. Qed.

(** The second stage of a nonlinear Bathe step: a Newton iteration for the displacement from the end
    of the Newmark step over gamma dt. Its first right-hand side takes the residual and the damping
    of the old displacement. c1, c2, c3 are the coefficients of the three-point backward formula. *)
Theorem C93_bathe {S : VS} (p : dprob S) o t dt s q s' :
  batheNL p o t dt s = Done (Fin q) s' ->
  exists M C0 R0 q1 s1 r, let h := t + dt in let g := do_gamma o in
    let c1 := (1 - g) / (g * dt) in let c2 := (-1) / ((1 - g) * g * dt) in let c3 := (2 - g) / ((1 - g) * dt) in
    let vel u := c1 *v x_U s +v c2 *v x_U s1 +v c3 *v u in
    let rhs R1 C u := R1 -v M (c1 *v x_V s +v c2 *v x_V s1 +v (c1 * c3) *v x_U s +v (c3 * c2) *v x_U s1 +v (c3 * c3) *v u) -v C (vel u) in
    let b0 := rhs R0 C0 (x_U s1) in
    newmarkNL p o t (g * dt) s = Done (Fin q1) s1 /\
    dp_mass p h = Yes M /\ dp_damp p (x_U s) h = Yes C0 /\ dp_res p (x_U s) h = Yes R0 /\
    newtonRun p o h fst
      (fun C K x x' => exists d R1, dp_solve p (fun y => K y +v (c3 * c3) *v M y +v c3 *v C y) (snd x) = Some d /\
         fst x' = fst x +v d /\ dp_res p (fst x') h = Yes R1 /\ snd x' = rhs R1 C (fst x'))
      (fun x x' => norm (fst x') <> 0 /\ norm (fst x' -v fst x) / norm (fst x') < do_tolU o /\
         norm (snd x') / (if Reqb (norm b0) 0 then 1 else norm b0) < do_tolF o)
      (x_U s1, b0) (x_U s', r) q /\
    x_V s' = vel (x_U s') /\ x_A s' = c1 *v x_V s +v c2 *v x_V s1 +v c3 *v x_V s'.
Proof.
  intros H. unfold batheNL in H. cbv zeta in H.
  destruct (newmarkNL p o t (do_gamma o * dt) s) as [rq s1|e s1] eqn:EN; [|discriminate].
  destruct (dp_mass p (t + dt)) as [M| |] eqn:EM; cbn [ask rbind] in H; try discriminate.
  destruct (dp_damp p (x_U s) (t + dt)) as [C0| |] eqn:EC; cbn [ask rbind] in H; try discriminate.
  destruct (dp_res p (x_U s) (t + dt)) as [R0| |] eqn:ER; cbn [ask rbind] in H; try discriminate.
  destruct rq as [q1|q1]; [|discriminate]. destruct (batheBad o dt); [discriminate|].
  exists M, C0, R0, q1, s1. cbv zeta. fold (bc1 o dt) (bc2 o dt) (bc3 o dt).
  set (c1 := bc1 o dt) in *. set (c2 := bc2 o dt) in *. set (c3 := bc3 o dt) in *.
  match type of H with batheLoop _ _ _ _ _ _ _ _ _ (if Reqb (norm ?b) 0 then _ else _) _ _ _ _ ?b' _ = _ => set (b0 := b) in * end.
  set (r0 := if Reqb (norm b0) 0 then 1 else norm b0) in *.
  set (rhs := fun (R1 : S) (C : S -> S) u => R1 -v M (c1 *v x_V s +v c2 *v x_V s1 +v (c1 * c3) *v x_U s +v (c3 * c2) *v x_U s1 +v (c3 * c3) *v u) -v C (c1 *v x_U s +v c2 *v x_U s1 +v c3 *v u)).
  set (st := fun u => mkX u (x_V s1) (x_A s1) (x_inv s1)).
  destruct (loop_trace p o (t + dt) fst
      (fun C K (x x' : S * S) => exists d R1, dp_solve p (fun y => K y +v (c3 * c3) *v M y +v c3 *v C y) (snd x) = Some d /\
         fst x' = fst x +v d /\ dp_res p (fst x') (t + dt) = Yes R1 /\ snd x' = rhs R1 C (fst x'))
      (fun x x' => norm (fst x') <> 0 /\ norm (fst x' -v fst x) / norm (fst x') < do_tolU o /\ norm (snd x') / r0 < do_tolF o)
      (fun n i C K x => batheLoop p o t dt M (x_U s) (x_V s) (x_U s1) (x_V s1) r0 n i C K (snd x) (st (fst x)))
      (fun x s' => x_U s' = fst x /\ x_V s' = c1 *v x_U s +v c2 *v x_U s1 +v c3 *v x_U s' /\ x_A s' = c1 *v x_V s +v c2 *v x_V s1 +v c3 *v x_V s') q s')
    with (C := C0) (K := fun x : S => x) (x0 := (x_U s1, b0)) as (x1 & HR & HF1 & HF2 & HF3).
  - intros i C K x HL. cbn [batheLoop] in HL. cbv zeta in HL. injection HL as <- <-. auto.
  - intros n i C K x HL. cbn [batheLoop] in HL. cbv zeta in HL. destruct (badMod o i); [discriminate|]. split; [reflexivity|].
    assert (Q : forall C' K', match dp_solve p (fun y => K' y +v (c3 * c3) *v M y +v c3 *v C' y) (snd x) with
      | Some dU => run! (Rs, s2) := ask (dp_res p (fst x +v dU) (t + dt)) (xU (fst x +v dU) (st (fst x))) in
          if ratioLt (norm dU) (norm (fst x +v dU)) (do_tolU o) && Rltb (norm (rhs Rs C' (fst x +v dU)) / r0) (do_tolF o)
          then Done (Fin Success) (xV (c1 *v x_U s +v c2 *v x_U s1 +v c3 *v x_U s2) (xA (c1 *v x_V s +v c2 *v x_V s1 +v c3 *v (c1 *v x_U s +v c2 *v x_U s1 +v c3 *v x_U s2)) s2))
          else batheLoop p o t dt M (x_U s) (x_V s) (x_U s1) (x_V s1) r0 n (Datatypes.S i) C' K' (rhs Rs C' (fst x +v dU)) s2
      | None => Done (NonFin NotConverged) (st (fst x)) end = Done (Fin q) s' ->
      exists x', (exists d R1, dp_solve p (fun y => K' y +v (c3 * c3) *v M y +v c3 *v C' y) (snd x) = Some d /\
         fst x' = fst x +v d /\ dp_res p (fst x') (t + dt) = Yes R1 /\ snd x' = rhs R1 C' (fst x')) /\
       ((norm (fst x') <> 0 /\ norm (fst x' -v fst x) / norm (fst x') < do_tolU o /\ norm (snd x') / r0 < do_tolF o) /\ q = Success /\
          (x_U s' = fst x' /\ x_V s' = c1 *v x_U s +v c2 *v x_U s1 +v c3 *v x_U s' /\ x_A s' = c1 *v x_V s +v c2 *v x_V s1 +v c3 *v x_V s') \/
        ~ (norm (fst x') <> 0 /\ norm (fst x' -v fst x) / norm (fst x') < do_tolU o /\ norm (snd x') / r0 < do_tolF o) /\
          batheLoop p o t dt M (x_U s) (x_V s) (x_U s1) (x_V s1) r0 n (Datatypes.S i) C' K' (snd x') (st (fst x')) = Done (Fin q) s')).
    { clear HL. intros C' K' HL. destruct (dp_solve p _ _) as [d|]; [|discriminate].
      destruct (dp_res p (fst x +v d) (t + dt)) as [R1| |] eqn:E1; cbn [ask rbind] in HL; try discriminate.
      exists (fst x +v d, rhs R1 C' (fst x +v d)). cbn [fst snd]. split; [exists d, R1; auto 10|].
      replace (fst x +v d -v fst x) with d by vring.
      match type of HL with (if ?b then _ else _) = _ => destruct b eqn:ET end.
      - left. apply andb_true_iff in ET as [T1 T2]. apply Rltb_true in T2. unfold ratioLt in T1.
        destruct (Reqb (norm (fst x +v d)) 0) eqn:T3; apply Rltb_true in T1; [pose proof (norm_pos d); lra|]. apply Reqb_false in T3.
        injection HL as <- <-. auto 10.
      - right. split; [|exact HL]. intros (T0 & T1 & T2). apply Rltb_true in T1, T2. apply Reqb_false in T0.
        unfold ratioLt in ET. rewrite T0, T1, T2 in ET. discriminate. }
    destruct (renew o i).
    + change (x_U (st (fst x))) with (fst x) in HL.
      destruct (dp_damp p (fst x) (t + dt)) as [C1| |] eqn:E1; cbn [ask rbind] in HL; try discriminate.
      change (x_U (st (fst x))) with (fst x) in HL.
      destruct (dp_jac p (fst x) (t + dt)) as [K1| |] eqn:E2; cbn [ask rbind] in HL; try discriminate.
      destruct (Q C1 K1 HL) as (x' & Q1 & Q2). exists C1, K1, x'. auto.
    + cbn [rbind] in HL. destruct (Q C K HL) as (x' & Q1 & Q2). exists C, K, x'. auto.
  - exact H.
  - exists (snd x1). split; [exact EN|]. split; [exact EM|]. split; [exact EC|]. split; [exact ER|].
    split; [rewrite HF1; destruct x1; exact HR|]. split; assumption.
Qed.
Print Assumptions C93_bathe.
Example C93_bathe_example : exists s1 s2, batheNL duffing (mkDO (1/4) (1/2) (1/2) (1/4) (1/4) 9 false 2) 0 1 (mkX (S := VS_R) 0 0 0 None) = Done (Fin Success) s1 /\
  batheNL duffing (mkDO (1/4) (1/2) (1/2) (1/4) (1/4) 9 true 2) 0 1 (mkX (S := VS_R) 0 0 0 None) = Done (Fin Success) s2 /\ x_A s1 <> x_A s2.
Proof. eexists _, _. split; [dev|]. split; [dev|]. rcbv. lra. Qed.

(** A nonlinear implicit Euler step: a Newton iteration for displacement and velocity together. The
    residual vector is taken at the time t + dt before the first iteration and at t afterwards, and
    the stopping test sees the right-hand side from before the last correction. *)
Theorem C93_implicitEuler {S : VS} (p : dprob S) o t dt s q s' :
  implicitEulerNL p o t dt s = Done (Fin q) s' ->
  exists M C0 R0 rs r, let h := t + dt in
    let b0 : VS_prod S S := (vopp (dt *v x_V s), dt *v C0 (x_V s) -v dt *v R0) in
    dp_mass p h = Yes M /\ dp_damp p (x_U s) h = Yes C0 /\ dp_res p (x_U s) h = Yes R0 /\
    newtonRun p o h it_U
      (fun C K (x x' : iter S (VS_prod S S)) => exists d : VS_prod S S,
         it_r x' = (it_U x -v x_U s -v dt *v it_V x, M (it_V x -v x_V s) +v dt *v C (it_V x) -v dt *v it_A x) /\
         dp_gmres p (fun y => (fst y -v dt *v snd y, dt *v K (fst y) +v M (snd y) +v dt *v C (snd y))) (vopp (it_r x')) = Some d /\
         it_U x' = it_U x +v fst d /\ it_V x' = it_V x +v snd d /\ dp_res p (it_U x') t = Yes (it_A x'))
      (fun (x x' : iter S (VS_prod S S)) => let y : VS_prod S S := (it_U x', it_V x') in let d : VS_prod S S := (it_U x' -v it_U x, it_V x' -v it_V x) in
         (if Reqb (norm y) 0 then norm d else norm d / norm y) < do_tolU o /\
         norm (it_r x') / (if Reqb (norm b0) 0 then 1 else norm b0) < do_tolF o)
      (mkIt (x_U s) (x_V s) R0 b0) (mkIt (x_U s') (x_V s') rs r) q /\ x_A s' = x_A s.
Proof.
  intros H. unfold implicitEulerNL in H. cbv zeta in H.
  destruct (dp_mass p (t + dt)) as [M| |] eqn:EM; cbn [ask rbind] in H; try discriminate.
  destruct (dp_damp p (x_U s) (t + dt)) as [C0| |] eqn:EC; cbn [ask rbind] in H; try discriminate.
  destruct (dp_res p (x_U s) (t + dt)) as [R0| |] eqn:ER; cbn [ask rbind] in H; try discriminate.
  exists M, C0, R0. cbv zeta.
  assert (EB : ((vopp (dt *v x_V s), dt *v C0 (x_V s) +v dt *v vopp R0) : VS_prod S S) = (vopp (dt *v x_V s), dt *v C0 (x_V s) -v dt *v R0)) by (f_equal; vring).
  rewrite EB in H. set (b0 := ((vopp (dt *v x_V s), dt *v C0 (x_V s) -v dt *v R0) : VS_prod S S)) in *.
  set (r0 := if Reqb (norm b0) 0 then 1 else norm b0) in *.
  set (st := fun u v => mkX u v (x_A s) (x_inv s)).
  set (G := fun (C K : S -> S) (x x' : iter S (VS_prod S S)) => exists d : VS_prod S S,
         it_r x' = (it_U x -v x_U s -v dt *v it_V x, M (it_V x -v x_V s) +v dt *v C (it_V x) -v dt *v it_A x) /\
         dp_gmres p (fun y => (fst y -v dt *v snd y, dt *v K (fst y) +v M (snd y) +v dt *v C (snd y))) (vopp (it_r x')) = Some d /\
         it_U x' = it_U x +v fst d /\ it_V x' = it_V x +v snd d /\ dp_res p (it_U x') t = Yes (it_A x')).
  set (T := fun (x x' : iter S (VS_prod S S)) => let y : VS_prod S S := (it_U x', it_V x') in let d : VS_prod S S := (it_U x' -v it_U x, it_V x' -v it_V x) in
         (if Reqb (norm y) 0 then norm d else norm d / norm y) < do_tolU o /\ norm (it_r x') / r0 < do_tolF o).
  destruct (loop_trace p o (t + dt) it_U G T
      (fun n i C K x => implicitLoop p o t dt M (x_U s) (x_V s) r0 n i C K (it_A x) (st (it_U x) (it_V x)))
      (fun x s' => s' = st (it_U x) (it_V x)) q s')
    with (C := C0) (K := fun x : S => x) (x0 := mkIt (x_U s) (x_V s) R0 b0) as (x1 & HR & HF).
  - intros i C K x HL. cbn in HL. injection HL as <- <-. auto.
  - intros n i C K x HL. cbn [implicitLoop] in HL. cbv zeta in HL. destruct (badMod o i); [discriminate|]. split; [reflexivity|].
    assert (Q : forall C' K', match dp_gmres p (euMat dt M C' K') (vopp ((it_U x -v x_U s -v dt *v it_V x, M (it_V x -v x_V s) +v dt *v C' (it_V x) +v dt *v vopp (it_A x)) : VS_prod S S)) with
      | None => Done (NonFin NotConverged) (st (it_U x) (it_V x))
      | Some d => run! (Rs, s2) := ask (dp_res p (fst (@vadd (VS_prod S S) (it_U x, it_V x) d)) t)
                     (xU (fst (@vadd (VS_prod S S) (it_U x, it_V x) d)) (xV (snd (@vadd (VS_prod S S) (it_U x, it_V x) d)) (st (it_U x) (it_V x)))) in
         if Rltb (if Reqb (norm (@vadd (VS_prod S S) (it_U x, it_V x) d)) 0 then norm d else norm d / norm (@vadd (VS_prod S S) (it_U x, it_V x) d)) (do_tolU o) &&
            Rltb (norm ((it_U x -v x_U s -v dt *v it_V x, M (it_V x -v x_V s) +v dt *v C' (it_V x) +v dt *v vopp (it_A x)) : VS_prod S S) / r0) (do_tolF o)
         then Done (Fin Success) s2 else implicitLoop p o t dt M (x_U s) (x_V s) r0 n (Datatypes.S i) C' K' Rs s2 end = Done (Fin q) s' ->
      exists x', G C' K' x x' /\ (T x x' /\ q = Success /\ s' = st (it_U x') (it_V x') \/
        ~ T x x' /\ implicitLoop p o t dt M (x_U s) (x_V s) r0 n (Datatypes.S i) C' K' (it_A x') (st (it_U x') (it_V x')) = Done (Fin q) s')).
    { clear HL. intros C' K' HL.
      assert (E0 : ((it_U x -v x_U s -v dt *v it_V x, M (it_V x -v x_V s) +v dt *v C' (it_V x) +v dt *v vopp (it_A x)) : VS_prod S S)
        = (it_U x -v x_U s -v dt *v it_V x, M (it_V x -v x_V s) +v dt *v C' (it_V x) -v dt *v it_A x)) by (f_equal; vring).
      rewrite E0 in HL. set (b := ((it_U x -v x_U s -v dt *v it_V x, M (it_V x -v x_V s) +v dt *v C' (it_V x) -v dt *v it_A x) : VS_prod S S)) in *.
      destruct (dp_gmres p _ _) as [d|] eqn:ED; [|discriminate].
      destruct (dp_res p (fst (@vadd (VS_prod S S) (it_U x, it_V x) d)) t) as [R1| |] eqn:E1; cbn [ask rbind] in HL; try discriminate.
      destruct d as [du dv].
      exists (mkIt (it_U x +v du) (it_V x +v dv) R1 b). unfold G, T. cbn [it_U it_V it_A it_r fst snd] in *.
      split; [exists (du, dv); split; [reflexivity|]; split; [exact ED|]; auto|].
      replace (it_U x +v du -v it_U x) with du by vring. replace (it_V x +v dv -v it_V x) with dv by vring.
      match type of HL with (if ?b then _ else _) = _ => destruct b eqn:ET end.
      - left. apply andb_true_iff in ET as [T1 T2]. apply Rltb_true in T1, T2. injection HL as <- <-. split; [split; assumption|]. split; reflexivity.
      - right. split; [|exact HL]. intros [T1 T2]. apply Rltb_true in T1, T2. apply andb_false_iff in ET. destruct ET as [ET|ET].
        + change (Rltb (if Reqb (norm (S := VS_prod S S) (it_U x +v du, it_V x +v dv)) 0 then norm (S := VS_prod S S) (du, dv) else norm (S := VS_prod S S) (du, dv) / norm (S := VS_prod S S) (it_U x +v du, it_V x +v dv)) (do_tolU o) = false) in ET.
          rewrite T1 in ET. discriminate.
        + rewrite T2 in ET. discriminate. }
    destruct (renew o i).
    + change (x_U (st (it_U x) (it_V x))) with (it_U x) in HL.
      destruct (dp_damp p (it_U x) (t + dt)) as [C1| |] eqn:E1; cbn [ask rbind] in HL; try discriminate.
      change (x_U (st (it_U x) (it_V x))) with (it_U x) in HL.
      destruct (dp_jac p (it_U x) (t + dt)) as [K1| |] eqn:E2; cbn [ask rbind] in HL; try discriminate.
      destruct (Q C1 K1 HL) as (x' & Q1 & Q2). exists C1, K1, x'. auto.
    + cbn [rbind] in HL. destruct (Q C K HL) as (x' & Q1 & Q2). exists C, K, x'. auto.
  - destruct s. exact H.
  - exists (it_A x1), (it_r x1). split; [exact EM|]. split; [exact EC|]. split; [exact ER|].
    split; [rewrite HF; unfold st; cbn [x_U x_V]; destruct x1; exact HR|]. rewrite HF. reflexivity.
Qed.
Print Assumptions C93_implicitEuler.
(** two iterations *)
Example C93_implicit_example : exists s2, implicitEulerNL (osc2 1 0 1 (fun t => 3/4)) (trap 1) 0 (3/4) (mkX (S := VS_R) 0 0 0 None) = Done (Fin Success) s2 /\
  x_U s2 = 27/100.
Proof. destruct C54_nonlinear_example as (s & s2 & _ & E & _ & _ & U). exists s2. split; assumption. Qed.
