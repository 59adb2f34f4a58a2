(** Properties of the time integrators: C51 and the Bathe part of C50. *)
From Verif Require Import VS Status RunTac Static StaticRun Dynamic DynRun Props_Dynamic.
Local Open Scope R_scope.

(** ** C51 *)
Lemma bathe_ok {S : VS} (p : dprob S) o t dt s q s' :
  bathe p o t dt s = Done (Fin q) s' ->
  q = Success /\ do_gamma o <> 0 /\ do_gamma o <> 1 /\ dt <> 0 /\
  exists q1 s1 M C K F, newmark p o t (do_gamma o * dt) s = Done (Fin q1) s1 /\
    dp_mass p (t + dt) = Yes M /\ dp_force p (t + dt) = Yes F /\ dp_damp p (x_U s) (t + dt) = Yes C /\ dp_jac p (x_U s) (t + dt) = Yes K /\
    dp_solve p (fun x => K x +v (bc3 o dt * bc3 o dt) *v M x +v bc3 o dt *v C x)
      (F -v M (bc1 o dt *v x_V s +v bc2 o dt *v x_V s1 +v (bc1 o dt * bc3 o dt) *v x_U s +v (bc3 o dt * bc2 o dt) *v x_U s1)
         -v C (bc2 o dt *v x_U s1 +v bc1 o dt *v x_U s)) = Some (x_U s') /\
    x_V s' = bc1 o dt *v x_U s +v bc2 o dt *v x_U s1 +v bc3 o dt *v x_U s' /\
    x_A s' = bc1 o dt *v x_V s +v bc2 o dt *v x_V s1 +v bc3 o dt *v x_V s'.
Proof.
  intros H. unfold bathe in H. cbv zeta in H. destruct (newmark p o t (do_gamma o * dt) s) as [r s1|] eqn:E1; [|discriminate].
  asks H. match type of H with context [dp_solve p ?m ?b] => destruct (dp_solve p m b) as [U|] eqn:E end; destruct r as [q1|q1]; destruct (batheBad o dt) eqn:B; try discriminate.
  injection H as <- <-. unfold batheBad in B. apply orb_false_iff in B. destruct B as [B B3]. apply orb_false_iff in B. destruct B as [B1 B2].
  apply Reqb_false in B1, B2, B3. split; [reflexivity|]. do 3 (split; [assumption|]).
  exists q1, s1. do 4 eexists. split; [reflexivity|]. do 4 (split; [reflexivity|]). split; [exact E|]. split; reflexivity.
Qed.
(** A linear Bathe step that ends with finite vectors returns Success and satisfies the momentum
    balance at t + dt (matrices assembled at t + dt and the old displacement). *)
Theorem C51_balance {S : VS} (p : dprob S) o t dt s q s' :
  linearProb p -> bathe p o t dt s = Done (Fin q) s' ->
  q = Success /\ exists M C K F, dp_mass p (t + dt) = Yes M /\ dp_force p (t + dt) = Yes F /\
    dp_damp p (x_U s) (t + dt) = Yes C /\ dp_jac p (x_U s) (t + dt) = Yes K /\
    M (x_A s') +v C (x_V s') +v K (x_U s') = F.
Proof.
  intros L H. destruct (bathe_ok _ _ _ _ _ _ _ H) as (-> & _ & _ & _ & q1 & s1 & M & C & K & F & _ & E1 & E2 & E3 & E4 & E5 & EV & EA).
  split; [reflexivity|]. exists M, C, K, F. do 4 (split; [assumption|]).
  apply (lp_solve L) in E5. assert (LM := lp_mass L _ _ E1). assert (LC := lp_damp L _ _ _ E3).
  rewrite EA, EV. revert E5. lin LM. lin LC. intros E5.
  match type of E5 with _ = ?r => match r with ?f -v ?a -v ?b => transitivity ((f -v a -v b) +v a +v b); [rewrite <- E5; vring|vring] end end.
Qed.
Print Assumptions C51_balance.
(** The formulas for velocity and acceleration give the derivative of every quadratic motion: if the
    sub-step and the step lie on u0 + tau v0 + tau^2/2 a0 and the velocity of the sub-step is the
    derivative there, the new velocity and acceleration are the derivatives at dt. *)
Theorem C51_quadratic {S : VS} (p : dprob S) o t dt s q s' s1 q1 (a0 : S) :
  bathe p o t dt s = Done (Fin q) s' -> newmark p o t (do_gamma o * dt) s = Done (Fin q1) s1 ->
  let tau := do_gamma o * dt in
  x_U s1 = x_U s +v tau *v x_V s +v (tau * tau / 2) *v a0 -> x_V s1 = x_V s +v tau *v a0 ->
  x_U s' = x_U s +v dt *v x_V s +v (dt * dt / 2) *v a0 ->
  x_V s' = x_V s +v dt *v a0 /\ x_A s' = a0.
Proof.
  intros H H1 tau HU1 HV1 HU. destruct (bathe_ok _ _ _ _ _ _ _ H) as (-> & G0 & G1 & D0 & q1' & s1' & M & C & K & F & E0 & _ & _ & _ & _ & _ & EV & EA).
  rewrite H1 in E0. injection E0 as <- <-. assert (G2 : 1 - do_gamma o <> 0) by lra.
  assert (V' : x_V s' = x_V s +v dt *v a0).
  { rewrite EV, HU1, HU. unfold bc1, bc2, bc3, tau. vfield; auto. }
  split; [exact V'|]. rewrite EA, V', HV1. unfold bc1, bc2, bc3, tau. vfield; auto.
Qed.
Print Assumptions C51_quadratic.
(** Hence a step reproduces a quadratic motion that satisfies the equation of motion at the sub-step
    and at the end of the step, when both matrices of the step are injective. *)
Theorem C51_exact {S : VS} (p : dprob S) o M C K f t dt s q s' (a0 : S) :
  linearProb p -> constOps p M C K -> (forall t, dp_force p t = Yes (f t)) ->
  (forall x y, M x +v (do_delta o * (do_gamma o * dt)) *v C x +v (do_gamma o * dt * (do_gamma o * dt) * do_alpha o) *v K x =
     M y +v (do_delta o * (do_gamma o * dt)) *v C y +v (do_gamma o * dt * (do_gamma o * dt) * do_alpha o) *v K y -> x = y) ->
  (forall x y, K x +v (bc3 o dt * bc3 o dt) *v M x +v bc3 o dt *v C x = K y +v (bc3 o dt * bc3 o dt) *v M y +v bc3 o dt *v C y -> x = y) ->
  (let u tau := x_U s +v tau *v x_V s +v (tau * tau / 2) *v a0 in let v tau := x_V s +v tau *v a0 in
    forall tau, tau = do_gamma o * dt \/ tau = dt -> M a0 +v C (v tau) +v K (u tau) = f (t + tau)) ->
  x_A s = a0 -> bathe p o t dt s = Done (Fin q) s' ->
  x_U s' = x_U s +v dt *v x_V s +v (dt * dt / 2) *v a0 /\ x_V s' = x_V s +v dt *v a0 /\ x_A s' = a0.
Proof.
  intros L CO HF I1 I2 EQ EA H. pose proof (bathe_ok _ _ _ _ _ _ _ H) as (-> & G0 & G1 & D0 & q1 & s1 & M' & C' & K' & F' & E0 & E1 & E2 & E3 & E4 & E5 & EV & EA').
  assert (LM := lp_mass L 0 M (co_mass _ _ _ _ CO 0)). assert (LC := lp_damp L v0 0 C (co_damp _ _ _ _ CO v0 0)). assert (LK := lp_jac L v0 0 K (co_jac _ _ _ _ CO v0 0)).
  rewrite (co_mass _ _ _ _ CO) in E1. injection E1 as <-. rewrite HF in E2. injection E2 as <-.
  rewrite (co_damp _ _ _ _ CO) in E3. injection E3 as <-. rewrite (co_jac _ _ _ _ CO) in E4. injection E4 as <-.
  destruct (C48_newmark p o t _ s q1 s1 L E0) as (_ & U1 & V1 & M' & C' & K' & F' & N1 & N2 & (N3 & N4) & N5).
  rewrite (co_mass _ _ _ _ CO) in N1. injection N1 as <-. rewrite HF in N2. injection N2 as <-.
  rewrite (co_damp _ _ _ _ CO) in N3. injection N3 as <-. rewrite (co_jac _ _ _ _ CO) in N4. injection N4 as <-.
  cbv zeta in EQ. set (tau := do_gamma o * dt) in *.
  assert (A1 : x_A s1 = a0).
  { apply I1. pose proof (EQ tau (or_introl eq_refl)) as Q. revert N5 Q. rewrite U1, V1, EA. lin LC. lin LK. intros N5 Q.
    assert (Z : forall x y : S, x -v y = v0 -> x = y) by (intros x y Hxy; transitivity ((x -v y) +v y); [vring|rewrite Hxy; vring]).
    apply Z. rewrite <- N5 in Q. apply (f_equal (fun z => z -v (M a0 +v (C (x_V s) +v tau *v C a0) +v (K (x_U s) +v tau *v K (x_V s) +v (tau * tau / 2) *v K a0)))) in Q.
    match type of Q with ?l = ?r => transitivity (r -v l); [vfield|rewrite Q; vring] end. }
  rewrite A1, EA in U1, V1.
  assert (U1' : x_U s1 = x_U s +v tau *v x_V s +v (tau * tau / 2) *v a0) by (rewrite U1; vfield).
  assert (V1' : x_V s1 = x_V s +v tau *v a0) by (rewrite V1; vfield).
  assert (UE : x_U s' = x_U s +v dt *v x_V s +v (dt * dt / 2) *v a0).
  { apply I2. apply (lp_solve L) in E5. rewrite E5. clear E5. rewrite <- (EQ dt (or_intror eq_refl)), U1', V1'.
    assert (G2 : 1 - do_gamma o <> 0) by lra. lin LM. lin LC. lin LK. unfold bc1, bc2, bc3, tau. vfield; auto. }
  destruct (C51_quadratic p o t dt s Success s' s1 q1 a0 H E0 U1' V1' UE). auto.
Qed.
Print Assumptions C51_exact.
Definition quadF (t : R) : R := 3 + (2 + 3 * t) + 4 * (1 + 2 * t + 3/2 * (t * t)).
Example C51_example : exists s, bathe (osc 1 1 4 quadF) (trap (1/2)) 0 1 (mkX (S := VS_R) 1 2 3 None) = Done (Fin Success) s /\
  x_U s = 9/2 /\ x_V s = 5 /\ x_A s = 3 /\
  forall tau, 1 * 3 + 1 * (2 + tau * 3) + 4 * (1 + tau * 2 + tau * tau / 2 * 3) = quadF (0 + tau).
Proof. eexists. split; [dev|]. split; [rcbv; lra|]. split; [rcbv; lra|]. split; [rcbv; lra|]. intros. unfold quadF. field. Qed.

(** ** C50, Bathe *)
(** On a linear problem the nonlinear variant starts from the residual at the old displacement. If
    that does not pass the test after one iteration (its error is K (Uold - Ustep)) and three
    iterations are allowed, the result is that of the linear variant; it is reported as Success
    exactly when the new displacement is not zero. Missing: the other cases (C50_refuted, and
    C50_bathe_loose below). *)
Theorem C50_bathe_partial {S : VS} (p : dprob S) o (M C K : S -> S) (f : R -> S) t dt s :
  constOps p M C K -> linear M -> linear C -> linear K ->
  (forall t, dp_force p t = Yes (f t)) -> (forall u t, dp_res p u t = Yes (f t -v K u)) ->
  solvable p (fun x => M x +v (do_delta o * (do_gamma o * dt)) *v C x +v (do_gamma o * dt * (do_gamma o * dt) * do_alpha o) *v K x) ->
  solvable p (fun x => K x +v (bc3 o dt * bc3 o dt) *v M x +v bc3 o dt *v C x) ->
  (3 <= do_maxIt o)%nat -> 0 < do_tolU o -> 0 < do_tolF o -> (do_quasi o = true -> do_quasiIt o <> O) ->
  do_gamma o <> 0 -> do_gamma o <> 1 -> dt <> 0 ->
  (forall s1, newmark p o t (do_gamma o * dt) s = Done (Fin Success) s1 ->
    let b := f (t + dt) -v K (x_U s) -v M (bc1 o dt *v x_V s +v bc2 o dt *v x_V s1 +v bc3 o dt *v (bc1 o dt *v x_U s +v bc2 o dt *v x_U s1 +v bc3 o dt *v x_U s1))
       -v C (bc1 o dt *v x_U s +v bc2 o dt *v x_U s1 +v bc3 o dt *v x_U s1) in
    do_tolF o * (if Reqb (norm b) 0 then 1 else norm b) <= norm (K (x_U s -v x_U s1))) ->
  exists s' q, bathe p o t dt s = Done (Fin Success) s' /\ batheNL p o t dt s = Done (Fin q) s' /\
    (q = Success <-> x_U s' <> v0) /\ (q = NotConverged <-> x_U s' = v0).
Proof.
  intros CO LM LC LK HF HR SV1 SV2 Hm HtU HtF HQ G0 G1 D0 HT.
  destruct (C50_newmark p o M C K f CO LM LC LK HF HR t (do_gamma o * dt) s SV1 ltac:(lia) HtU HtF HQ) as (s1 & N1 & N2).
  specialize (HT s1 N1). cbv zeta in HT.
  assert (XI : x_inv s1 = x_inv s).
  { revert N1. unfold newmark. cbv zeta. rewrite (co_mass _ _ _ _ CO), HF. cbn [ask rbind]. rewrite (co_damp _ _ _ _ CO), (co_jac _ _ _ _ CO). cbn [ask rbind].
    match goal with |- context [dp_solve p ?m ?b] => destruct (dp_solve p m b) end; [|discriminate]. intros N1. injection N1 as <-. reflexivity. }
  assert (XS : xInv (x_inv s1) s = s) by (rewrite XI; destruct s; reflexivity).
  unfold bathe, batheNL. rewrite N1, N2. cbv zeta. rewrite XS, (co_mass _ _ _ _ CO), HF. cbn [ask rbind]. rewrite !(co_damp _ _ _ _ CO), (co_jac _ _ _ _ CO), HR. cbn [ask rbind].
  assert (BB : batheBad o dt = false).
  { unfold batheBad. rewrite (proj2 (Reqb_false _ _) G0), (proj2 (Reqb_false _ _) G1), (proj2 (Reqb_false _ _) D0). reflexivity. }
  rewrite BB. set (c1 := bc1 o dt) in *. set (c2 := bc2 o dt) in *. set (c3 := bc3 o dt) in *.
  set (lhs := fun x => K x +v (c3 * c3) *v M x +v c3 *v C x) in *.
  assert (LL : linear lhs) by (apply (lin_comb K M C); assumption).
  set (u := x_U s) in *. set (v := x_V s) in *. set (us := x_U s1) in *. set (vs := x_V s1) in *.
  set (h := f (t + dt) -v M (c1 *v v +v c2 *v vs +v (c1 * c3) *v u +v (c3 * c2) *v us) -v C (c2 *v us +v c1 *v u)).
  destruct (proj2 SV2 h) as (X & EX & LX). rewrite EX. eexists. 
  assert (RB : forall y, f (t + dt) -v K y -v M (c1 *v v +v c2 *v vs +v (c1 * c3) *v u +v (c3 * c2) *v us +v (c3 * c3) *v y) -v C (c1 *v u +v c2 *v us +v c3 *v y) = h -v lhs y).
  { intros y. unfold h, lhs. lin LM. lin LC. vring. }
  set (b := f (t + dt) -v K u -v M (c1 *v v +v c2 *v vs +v (c1 * c3) *v u +v (c3 * c2) *v us +v (c3 * c3) *v us) -v C (c1 *v u +v c2 *v us +v c3 *v us)).
  assert (HB : b = (h -v lhs us) +v K us -v K u).
  { rewrite <- (RB us). unfold b. vring. }
  match type of HT with context [norm ?b'] => assert (EB : b' = b) by (unfold b; lin LM; lin LC; vring) end. rewrite EB in HT. clear EB.
  set (r0 := if Reqb (norm b) 0 then 1 else norm b) in *.
  assert (R0 : 0 < r0) by (unfold r0; destruct (Reqb (norm b) 0) eqn:E; [lra|apply Reqb_false in E; pose proof (norm_pos b); lra]).
  clearbody r0.
  assert (BM : forall i, badMod o i = false).
  { intros i. unfold badMod. destruct (do_quasi o); [|reflexivity]. specialize (HQ eq_refl). destruct (i =? 0)%nat; [reflexivity|].
    cbn. apply Nat.eqb_neq. exact HQ. }
  set (fin q s0 := Done (Fin q) (xV (c1 *v u +v c2 *v us +v c3 *v x_U s0) (xA (c1 *v v +v c2 *v vs +v c3 *v (c1 *v u +v c2 *v us +v c3 *v x_U s0)) s0)) : run (xst S) sans).
  assert (IT : forall n i r s0 K', K' = K \/ i = O -> batheLoop p o t dt M u v us vs r0 (Datatypes.S n) i C K' r s0 =
    match dp_solve p lhs r with
    | None => Done (NonFin NotConverged) s0
    | Some d => let U := x_U s0 +v d in
      if ratioLt (norm d) (norm U) (do_tolU o) && Rltb (norm (h -v lhs U) / r0) (do_tolF o) then fin Success (xU U s0)
      else batheLoop p o t dt M u v us vs r0 n (Datatypes.S i) C K (h -v lhs U) (xU U s0)
    end).
  { intros n i r s0 K' HK. cbn [batheLoop]. rewrite BM.
    assert (RK : forall k : xst S -> (S -> S) -> run (xst S) sans, (if renew o i then k s0 K else k s0 K') = k s0 K).
    { intros k. destruct HK as [->| ->]; [destruct (renew o i); reflexivity|]. unfold renew. cbn [Nat.eqb]. rewrite orb_true_r. reflexivity. }
    destruct (renew o i) eqn:ER.
    - rewrite (co_damp _ _ _ _ CO); cbn [ask rbind]; rewrite (co_jac _ _ _ _ CO). cbn [ask rbind]. fold c1 c2 c3. fold lhs. destruct (dp_solve p lhs r) as [d|]; [|reflexivity].
      cbv zeta. rewrite HR. cbn [ask rbind]. rewrite RB. reflexivity.
    - assert (K' = K). { destruct HK as [->| ->]; [reflexivity|]. unfold renew in ER. cbn in ER. rewrite orb_true_r in ER. discriminate. } subst K'.
      cbn [ask rbind]. fold c1 c2 c3. fold lhs. destruct (dp_solve p lhs r) as [d|]; [|reflexivity].
      cbv zeta. rewrite HR. cbn [ask rbind]. rewrite RB. reflexivity. }
  assert (ZR : h -v lhs X = v0) by (rewrite LX; vring).
  assert (TF : Rltb (norm (h -v lhs X) / r0) (do_tolF o) = true).
  { apply Rltb_true. rewrite ZR, norm_v0. unfold Rdiv. rewrite Rmult_0_l. exact HtF. }
  (* from the exact displacement on *)
  assert (FX : forall n i s0, x_U s0 = X -> exists q, batheLoop p o t dt M u v us vs r0 n i C K (h -v lhs X) s0 = fin q s0 /\
    (n <> O -> q = Success <-> X <> v0) /\ (X = v0 -> q = NotConverged) /\ (q = Success \/ q = NotConverged)).
  { induction n as [|n IHn]; intros i s0 E0; [exists NotConverged; cbn; repeat split; auto; lia|].
    rewrite IT by auto. rewrite (solvable_zero _ _ _ SV2 LL ZR). cbv zeta.
    replace (x_U s0 +v v0) with X by (rewrite E0; vring). rewrite TF, andb_true_r.
    assert (ES : xU X s0 = s0) by (rewrite <- E0; destruct s0; reflexivity). rewrite ES.
    unfold ratioLt. rewrite norm_v0. destruct (Reqb (norm X) 0) eqn:EN.
    - apply Reqb_true in EN. apply norm_zero in EN. rewrite (proj2 (Rltb_false 0 0) (Rle_refl 0)).
      destruct (IHn (Datatypes.S i) s0 E0) as (q & E & _ & Q2 & Q3). exists q. split; [exact E|].
      split; [|split; assumption]. intros _. split; [intros ->; specialize (Q2 EN); discriminate|contradiction].
    - apply Reqb_false in EN. rewrite (proj2 (Rltb_true _ _)); [|unfold Rdiv; rewrite Rmult_0_l; exact HtU].
      exists Success. split; [reflexivity|]. assert (X <> v0) by (intros ->; apply EN, norm_v0). repeat split; auto; contradiction. }
  destruct (do_maxIt o) as [|[|[|n]]] eqn:EN; [lia|lia|lia|].
  (* first iteration *)
  rewrite IT by auto. destruct (proj2 SV2 b) as (d1 & -> & L1). cbv zeta. cbn [x_U xU xA xV xInv].
  assert (E1 : h -v lhs (us +v d1) = K (u -v us)).
  { lin LL. rewrite L1, HB. lin LK. vring. }
  rewrite E1. rewrite (proj2 (Rltb_false (norm (K (u -v us)) / r0) (do_tolF o))), andb_false_r.
  2: { apply (Rmult_le_reg_r r0); [exact R0|]. replace (norm (K (u -v us)) / r0 * r0) with (norm (K (u -v us))) by (field; lra). exact HT. }
  (* second iteration *)
  rewrite IT by auto. destruct (proj2 SV2 (K (u -v us))) as (d2 & -> & L2). cbv zeta. cbn [x_U xU xA xV xInv].
  assert (EU2 : us +v d1 +v d2 = X).
  { apply (proj1 SV2). rewrite (lin_add _ LL), L2, LX, <- E1. vring. }
  rewrite EU2, TF, andb_true_r.
  assert (EQS : forall q s0, x_U s0 = X -> x_inv s0 = x_inv s -> fin q s0 = Done (Fin q) (xU X (xV (c1 *v u +v c2 *v us +v c3 *v X) (xA (c1 *v v +v c2 *v vs +v c3 *v (c1 *v u +v c2 *v us +v c3 *v X)) s)))).
  { intros q s0 Q1 Q2. unfold fin. rewrite Q1. destruct s0; cbn in *. subst. reflexivity. }
  match goal with |- context [if ?c then fin Success ?s0 else _] => destruct c eqn:EC; [exists Success; rewrite (EQS Success s0) by auto|] end.
  - split; [reflexivity|]. split; [reflexivity|]. cbn [x_U xU].
    assert (X <> v0). { intros ->. rewrite norm_v0 in EC. unfold ratioLt in EC. rewrite (proj2 (Reqb_true 0 0) eq_refl) in EC. apply Rltb_true in EC. pose proof (norm_pos d2). lra. }
    split; split; auto; try discriminate; contradiction.
  - match goal with |- context [batheLoop p o t dt M u v us vs r0 (Datatypes.S n) 2 C K _ ?s0] => destruct (FX (Datatypes.S n) 2%nat s0 eq_refl) as (q & E & Q1 & Q2 & Q3); rewrite E; rewrite (EQS q s0) by auto end.
    exists q. split; [reflexivity|]. split; [reflexivity|]. cbn [x_U xU].
    specialize (Q1 (Nat.neq_succ_0 n)). split; [exact Q1|]. split; [|exact Q2]. intros ->. destruct (Req_dec (norm X) 0) as [N|N]; [apply norm_zero; exact N|].
    assert (NotConverged = Success) by (apply Q1; intros ->; apply N, norm_v0). discriminate.
Qed.
Print Assumptions C50_bathe_partial.
Example C50_bathe_example : exists s s1, batheNL (osc 1 0 4 (fun _ => 0)) (trap (1/2)) 0 1 (mkX (S := VS_R) 1 0 (-4) None) = Done (Fin Success) s /\
  bathe (osc 1 0 4 (fun _ => 0)) (trap (1/2)) 0 1 (mkX (S := VS_R) 1 0 (-4) None) = Done (Fin Success) s /\
  newmark (osc 1 0 4 (fun _ => 0)) (trap (1/2)) 0 (1/2 * 1) (mkX (S := VS_R) 1 0 (-4) None) = Done (Fin Success) s1 /\ x_U s1 <> 1.
Proof. do 2 eexists. split; [dev|]. split; [dev|]. split; [dev|]. rcbv. lra. Qed.
(** with loose tolerances the nonlinear variant stops after one iteration, off the linear result *)
Theorem C50_bathe_loose : exists s1 s2,
  let o := mkDO (1/4) (1/2) (1/2) 10 10 5 false 1 in
  bathe (osc 1 0 4 (fun _ => 0)) o 0 1 (mkX (S := VS_R) 1 0 (-4) None) = Done (Fin Success) s1 /\
  batheNL (osc 1 0 4 (fun _ => 0)) o 0 1 (mkX (S := VS_R) 1 0 (-4) None) = Done (Fin Success) s2 /\ x_U s1 - x_U s2 = 8/65.
Proof. do 2 eexists. cbv zeta. split; [dev|]. split; [dev|]. rcbv. lra. Qed.
Print Assumptions C50_bathe_loose.
