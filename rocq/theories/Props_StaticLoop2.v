(** Termination of the loops of the displacement-control programs: C123. *)
From Verif Require Import VS Status RunTac Static StaticRun StaticLoop Props_Static Props_Static2 Props_Static3 Props_Static6 Props_StaticLoop.
Local Open Scope R_scope.

(** ** C123 *)
Section Ends.
Context {S : VS} {T : Type}.
Variable f : iface S T.
Variables dL0 eps : R.
(** the states at the beginning of the passes of a loop *)
Inductive reachedBy (pass : lst S T -> lpass S T) (l0 : lst S T) : lst S T -> Prop :=
| ReStart : reachedBy pass l0 l0
| ReStep l l' : reachedBy pass l0 l -> pass l = LNext l' -> reachedBy pass l0 l'.
(** [quiet sg l]: the step made in the pass from [l] ends without exception, and is not repeated if dL is at most eps *)
Definition quiet (sg : R) (l : lst S T) : Prop :=
  exists q c, ctlStep f (sg * l_dL l) (l_c l) = Done q c /\ (l_dL l <= eps -> lrepeats q = false).
Lemma frust_ends steps m l0 : 0 < dL0 -> dL0 <= 2 ^ m * eps ->
  (forall l, reachedBy (frustPass f dL0) l0 l -> (l_k l < steps)%nat -> quiet (- 1) l) ->
  forall n r l, reachedBy (frustPass f dL0) l0 l -> (steps - l_k l <= n)%nat -> (r <= m)%nat -> 0 < l_dL l <= dL0 -> l_dL l <= 2 ^ r * eps ->
  forall fuel, (n * Datatypes.S m <= fuel + (m - r))%nat -> exists l', frustRun f dL0 steps fuel l = LNext l'.
Proof.
  intros Hd Hm HQ. induction n as [|n IHn]; intros r l.
  - intros R N _ _ _ fuel _. destruct fuel; cbn [frustRun]; rewrite (proj2 (Nat.ltb_ge _ _)) by lia; eauto.
  - revert l. induction r as [|r IHr]; intros l R N Hr D1 D2 fuel Hf.
    + destruct (Nat.ltb_spec (l_k l) steps) as [K|K]; [|destruct fuel; cbn [frustRun]; rewrite (proj2 (Nat.ltb_ge _ _)) by lia; eauto].
      destruct fuel as [|fuel]; [lia|]. cbn [frustRun]. rewrite (proj2 (Nat.ltb_lt _ _)) by lia.
      destruct (HQ l R K) as (q & c & E & Q). replace (- 1 * l_dL l) with (- l_dL l) in E by ring.
      destruct (frustPass f dL0 l) as [l'| |] eqn:P; unfold frustPass in P; rewrite E in P; [|destruct (lrepeats q); discriminate..].
      assert (R' : reachedBy (frustPass f dL0) l0 l') by (eapply ReStep; [exact R|unfold frustPass; rewrite E; exact P]).
      rewrite Q in P by (cbn in D2; lra). injection P as <-.
      apply (IHn m); cbn [l_k l_dL]; [exact R'|lia|lia|destruct (l_reset l); lra| |lia].
      destruct (l_reset l); [|lra]. lra.
    + destruct (Nat.ltb_spec (l_k l) steps) as [K|K]; [|destruct fuel; cbn [frustRun]; rewrite (proj2 (Nat.ltb_ge _ _)) by lia; eauto].
      destruct fuel as [|fuel]; [lia|]. cbn [frustRun]. rewrite (proj2 (Nat.ltb_lt _ _)) by lia.
      destruct (HQ l R K) as (q & c & E & Q). replace (- 1 * l_dL l) with (- l_dL l) in E by ring.
      destruct (frustPass f dL0 l) as [l'| |] eqn:P; unfold frustPass in P; rewrite E in P; [|destruct (lrepeats q); discriminate..].
      assert (R' : reachedBy (frustPass f dL0) l0 l') by (eapply ReStep; [exact R|unfold frustPass; rewrite E; exact P]).
      destruct (lrepeats q); injection P as <-.
      * apply IHr; cbn [l_k l_dL]; [exact R'|lia|lia|lra| |lia]. cbn [pow] in D2. lra.
      * apply (IHn m); cbn [l_k l_dL]; [exact R'|lia|lia|destruct (l_reset l); lra| |lia]. destruct (l_reset l); lra.
Qed.
Lemma snap_ends strain Emax steps m l0 : 0 < dL0 -> dL0 <= 2 ^ m * eps ->
  (forall l, reachedBy (snapPass f dL0) l0 l -> (l_k l < steps)%nat -> quiet 1 l) ->
  forall n r l e, reachedBy (snapPass f dL0) l0 l -> (steps - l_k l <= n)%nat -> (r <= m)%nat -> 0 < l_dL l <= dL0 -> l_dL l <= 2 ^ r * eps ->
  forall fuel, (n * Datatypes.S m <= fuel + (m - r))%nat -> exists l', snapRun f strain Emax dL0 steps fuel e l = LNext l'.
Proof.
  intros Hd Hm HQ. induction n as [|n IHn]; intros r l e.
  - intros R N _ _ _ fuel _. destruct fuel; cbn [snapRun]; rewrite (proj2 (Nat.ltb_ge _ _)), andb_false_r by lia; eauto.
  - revert l e. induction r as [|r IHr]; intros l e R N Hr D1 D2 fuel Hf.
    + destruct (Nat.ltb_spec (l_k l) steps) as [K|K]; [|destruct fuel; cbn [snapRun]; rewrite (proj2 (Nat.ltb_ge _ _)), andb_false_r by lia; eauto].
      destruct fuel as [|fuel]; [lia|]. cbn [snapRun]. rewrite (proj2 (Nat.ltb_lt _ _)) by lia. destruct (Rleb e Emax); cbn [andb]; [|eauto].
      destruct (HQ l R K) as (q & c & E & Q). rewrite Rmult_1_l in E.
      destruct (snapPass f dL0 l) as [l'| |] eqn:P; unfold snapPass in P; rewrite E in P; [|destruct (lrepeats q); discriminate..].
      assert (R' : reachedBy (snapPass f dL0) l0 l') by (eapply ReStep; [exact R|unfold snapPass; rewrite E; exact P]).
      rewrite Q in P by (cbn in D2; lra). injection P as <-.
      apply (IHn m); cbn [l_k l_dL]; [exact R'|lia|lia|lra|lra|lia].
    + destruct (Nat.ltb_spec (l_k l) steps) as [K|K]; [|destruct fuel; cbn [snapRun]; rewrite (proj2 (Nat.ltb_ge _ _)), andb_false_r by lia; eauto].
      destruct fuel as [|fuel]; [lia|]. cbn [snapRun]. rewrite (proj2 (Nat.ltb_lt _ _)) by lia. destruct (Rleb e Emax); cbn [andb]; [|eauto].
      destruct (HQ l R K) as (q & c & E & Q). rewrite Rmult_1_l in E.
      destruct (snapPass f dL0 l) as [l'| |] eqn:P; unfold snapPass in P; rewrite E in P; [|destruct (lrepeats q); discriminate..].
      assert (R' : reachedBy (snapPass f dL0) l0 l') by (eapply ReStep; [exact R|unfold snapPass; rewrite E; exact P]).
      destruct (lrepeats q); injection P as <-.
      * apply IHr; cbn [l_k l_dL]; [exact R'|lia|lia|lra| |lia]. cbn [pow] in D2. lra.
      * apply (IHn m); cbn [l_k l_dL]; [exact R'|lia|lia|lra|lra|lia].
Qed.
End Ends.
(** If every step made ends without exception, and is not repeated once its length is at most eps, both loops end after at most
    steps * (m + 1) passes, where dL0 <= 2^m eps. *)
Theorem C123_terminates {S : VS} {T : Type} (f : iface S T) dL0 eps steps m t strain Emax : 0 < dL0 -> dL0 <= 2 ^ m * eps ->
  let l0 := mkLS (ctlNew t) dL0 0 false 0 [] in
  ((forall l, reachedBy (frustPass f dL0) l0 l -> (l_k l < steps)%nat -> quiet f eps (- 1) l) -> exists l, frustMain f dL0 steps (steps * (m + 1)) t = LNext l) /\
  ((forall l, reachedBy (snapPass f dL0) l0 l -> (l_k l < steps)%nat -> quiet f eps 1 l) -> exists l, snapMain f strain Emax dL0 steps (steps * (m + 1)) t = LNext l).
Proof.
  intros Hd Hm l0. split; intros HQ.
  - apply (frust_ends f dL0 eps steps m l0 Hd Hm HQ steps m l0); cbn; try lia; try lra. apply ReStart.
  - apply (snap_ends f dL0 eps strain Emax steps m l0 Hd Hm HQ steps m l0); cbn; try lia; try lra. apply ReStart.
Qed.
Print Assumptions C123_terminates.
(** *** The first point *)
Section First.
Context {S : VS} {Mat : Type}.
Variables (p : nprob S Mat) (o : nopts) (mul : Mat -> S -> S) (r : R -> S -> S) (rho beta gamma c l1 : R).
(** no callback throws, no linear solve fails *)
Definition tame : Prop := (forall l u e, np_res p l u <> Throws e) /\ (forall u du e, np_jac p u du <> Throws e) /\
  (forall m, np_factor p m = true) /\ (forall m g, np_solve p m g <> None).
Definition calm {A} (x : run (nst S Mat) A) : Prop :=
  match x with Done _ s => n_head s = false | Threw e s => n_head s = false /\ (e = XInt 1 \/ e = XInt 2) end.
Lemma calm_bind {A B} (x : run (nst S Mat) A) (g : A -> nst S Mat -> run (nst S Mat) B) : calm x -> (forall a s, n_head s = false -> calm (g a s)) -> calm (rbind x g).
Proof. destruct x; cbn; intros H K; [apply K; exact H|exact H]. Qed.
Hypothesis HT : tame.
Lemma calm_res u s : n_head s = false -> calm (computeResidual p u s).
Proof.
  intros H. destruct HT as (T1 & _). unfold computeResidual. cbn [n_L addLog]. pose proof (T1 (n_L s) u) as T. destruct (np_res p (n_L s) u) as [x| |e]; cbn; auto.
  destruct (T e eq_refl).
Qed.
Lemma calm_iter s : n_head s = false -> calm (newtonIteration p o s).
Proof.
  intros H. destruct HT as (_ & T2 & T3 & T4). unfold newtonIteration. apply calm_bind.
  { unfold computeJacobian. pose proof (T2 (n_U s +v n_DU s) (n_dU s)) as T. destruct (np_jac p (n_U s +v n_DU s) (n_dU s)) as [x| |e]; cbn; auto. destruct (T e eq_refl). }
  intros m s1 H1. apply calm_bind; [unfold factorize; rewrite T3; exact H1|]. intros _ s2 H2. apply calm_bind.
  { unfold solveSystem. pose proof (T4 m (n_R s2)) as T. destruct (np_solve p m (n_R s2)); [exact H2|destruct (T eq_refl)]. }
  intros x s3 H3. apply calm_bind; [apply calm_res; exact H3|]. intros y s4 H4. exact H4.
Qed.
Lemma calm_loop n : forall i s, n_head s = false -> calm (newtonLoop p o n i s).
Proof.
  induction n as [|n IH]; intros i s H; [exact H|]. cbn [newtonLoop]. apply calm_bind; [apply calm_iter; exact H|].
  intros _ s1 H1. destruct (newtonTest o s1); [exact H1|]. destruct n; [cbn; auto|apply IH; exact H1].
Qed.
Lemma calm_solve s : np_nl p = true -> n_head s = false -> exists q s', newtonSolve p o s = Done q s' /\ n_head s' = false /\ (q = Success \/ lrepeats q = true).
Proof.
  intros Hn H. unfold newtonSolve. rewrite Hn.
  assert (C : calm (solveNonlinear_ p o s)).
  { unfold solveNonlinear_. apply calm_bind; [|intros; apply calm_loop; assumption]. unfold start_. rewrite H. apply calm_bind; [apply calm_res; exact H|].
    intros x s1 H1. exact H1. }
  destruct (solveNonlinear_ p o s) as [[] s1|e s1]; cbn [guarded calm] in *.
  - exists Success. eexists. split; [reflexivity|]. auto.
  - destruct C as (C & [->| ->]); cbn [catchStatus]; eexists _, _; (split; [reflexivity|]); split; auto.
Qed.
Hypothesis Hr : 0 < rho. Hypothesis Hb : 0 < beta. Hypothesis Hg : 0 < gamma. Hypothesis Hc : 0 < c. Hypothesis Hl : 0 < l1.
Hypothesis Hn : np_nl p = true.
Hypothesis HM : (2 <= no_maxIt o)%nat. Hypothesis Hrel : no_relax o = 1.
Hypothesis TU : 0 < tolOr (no_tolU o) (no_tol o). Hypothesis TF : 0 < tolOr (no_tolF o) (no_tol o).
(** around the origin the equations are regular for all small loads, and there the load produces a residual of size at most c |l| *)
Hypothesis RG : forall l, Rabs l <= l1 -> regular p mul (r l) l v0 rho beta gamma.
Hypothesis RL : forall l, Rabs l <= l1 -> norm (r l v0) <= c * Rabs l.
Hypothesis RN : forall l, Rabs l <= l1 -> l <> 0 -> r l v0 <> v0.
Lemma short_first : exists eps, 0 < eps /\ forall l s, l <> 0 -> Rabs l <= eps -> n_U s = v0 -> n_L s = l -> n_head s = false ->
  exists s', newtonSolve p o s = Done Success s'.
Proof.
  set (K := beta * c). set (K2 := K * (beta * gamma)). assert (PK : 0 < K) by (apply Rmult_lt_0_compat; assumption).
  assert (PG : 0 < beta * gamma) by (apply Rmult_lt_0_compat; assumption). assert (PK2 : 0 < K2) by (apply Rmult_lt_0_compat; assumption).
  set (tU := tolOr (no_tolU o) (no_tol o)) in *. set (tF := tolOr (no_tolF o) (no_tol o)) in *.
  set (q := Rmin (1/4) (Rmin (tU / 2) (tF / 2))).
  assert (Q : 0 < q /\ q <= 1/4 /\ q <= tU / 2 /\ q <= tF / 2).
  { unfold q. pose proof (Rmin_l (1/4) (Rmin (tU / 2) (tF / 2))). pose proof (Rmin_r (1/4) (Rmin (tU / 2) (tF / 2))).
    pose proof (Rmin_l (tU / 2) (tF / 2)). pose proof (Rmin_r (tU / 2) (tF / 2)). split; [repeat apply Rmin_pos; lra|lra]. }
  destruct Q as (Q0 & Q1 & Q2 & Q3).
  set (eps := Rmin l1 (Rmin (3/4 * rho / K) (q / K2))).
  assert (E0 : 0 < eps).
  { unfold eps. apply Rmin_pos; [exact Hl|]. apply Rmin_pos; apply Rmult_lt_0_compat; try lra; apply Rinv_0_lt_compat; assumption. }
  assert (E1 : eps <= l1) by apply Rmin_l.
  assert (E2 : K * eps <= 3/4 * rho).
  { apply (Rmult_le_reg_r (/ K)); [apply Rinv_0_lt_compat; exact PK|]. replace (K * eps * / K) with eps by (field; lra).
    eapply Rle_trans; [apply Rmin_r|]. apply Rmin_l. }
  assert (E3 : K2 * eps <= q).
  { apply (Rmult_le_reg_r (/ K2)); [apply Rinv_0_lt_compat; exact PK2|]. replace (K2 * eps * / K2) with eps by (field; lra).
    eapply Rle_trans; [apply Rmin_r|]. apply Rmin_r. }
  exists eps. split; [exact E0|]. intros l s Hl0 Hle HU HL HH.
  assert (Ll : Rabs l <= l1) by lra. specialize (RG l Ll). specialize (RL l Ll). specialize (RN l Ll Hl0).
  assert (B0 : norm ((v0 : S) -v v0) <= rho) by (replace ((v0 : S) -v v0) with (v0 : S) by vring; rewrite norm_0; lra).
  destruct (rg_jac _ _ _ _ _ _ _ _ RG v0 v0 B0) as (m & J & _ & SV & TY). destruct (SV (r l v0)) as (x0 & SD & MD & ND).
  assert (X0 : x0 <> v0).
  { intros ->. specialize (TY v0). replace ((v0 : S) +v v0) with (v0 : S) in TY by vring. specialize (TY B0). rewrite MD, norm_0 in TY.
    match type of TY with norm ?v <= _ => replace v with (r l v0) in TY by vring end.
    apply RN. apply norm_zero. pose proof (norm_pos (r l v0)). lra. }
  assert (NX : norm x0 <= K * eps).
  { eapply Rle_trans; [exact ND|]. unfold K. rewrite Rmult_assoc. apply Rmult_le_compat_l; [lra|]. eapply Rle_trans; [exact RL|]. apply Rmult_le_compat_l; lra. }
  pose proof (norm_pos x0) as PX. set (h := beta * gamma * norm x0).
  assert (H1 : h <= q).
  { unfold h. eapply Rle_trans; [apply Rmult_le_compat_l; [lra|exact NX]|]. replace (beta * gamma * (K * eps)) with (K2 * eps) by (unfold K2; ring). exact E3. }
  assert (H0 : 0 <= h) by (unfold h; apply Rmult_le_pos; lra).
  assert (RG' : regular p mul (r l) l v0 (4/3 * norm x0) beta gamma).
  { destruct RG as [G1 G2 G3]. assert (W : forall u : S, norm (u -v v0) <= 4/3 * norm x0 -> norm (u -v v0) <= rho) by (intros; lra). split; [exact G1|intros u Hu; apply G2, W, Hu|].
    intros u du Hu. destruct (G3 u du (W u Hu)) as (m1 & A1 & A2 & A3 & A4). exists m1. repeat (split; [assumption|]). intros d Hd. apply A4, W, Hd. }
  destruct (C109_newton p o mul (r l) l v0 x0 beta gamma h X0 ltac:(lra) ltac:(lra) ltac:(unfold h in *; lra) RG' Hrel m 2 s HU HL HH J SD ltac:(lia)) as (s' & E & _).
  - cbn [Nat.sub Nat.pow Nat.mul Nat.add]. rewrite pow_1. fold tU. lra.
  - cbn [Nat.sub Nat.pow Nat.mul Nat.add]. fold tF. cbn [pow]. assert (h * (h * 1) <= 1) by (rewrite Rmult_1_r; replace 1 with (1 * 1) by ring; apply Rmult_le_compat; lra).
    assert (h * (h * (h * 1)) <= h * 1) by (apply Rmult_le_compat_l; assumption). lra.
  - eauto.
Qed.
Notation f := (newtonIface p o).
(** what a pass of either loop does with control *)
Definition passSpec (sg dL0 : R) (pass : lst S (nst S Mat) -> lpass S (nst S Mat)) : Prop := forall l l', pass l = LNext l' ->
  exists q c0, ctlStep f (sg * l_dL l) (l_c l) = Done q c0 /\ l_c l' = c0 /\ (if lrepeats q then l_k l' = l_k l /\ l_dL l' = l_dL l / 2 /\ l_out l' = l_out l else l_k l' = Datatypes.S (l_k l) /\ length (l_out l') = Datatypes.S (length (l_out l))).
Lemma frust_spec dL0 : passSpec (- 1) dL0 (frustPass f dL0).
Proof.
  intros l l'. unfold frustPass. replace (- 1 * l_dL l) with (- l_dL l) by ring. destruct (ctlStep f (- l_dL l) (l_c l)) as [q c0|]; [|discriminate].
  intros H. exists q, c0. split; [reflexivity|]. destruct (lrepeats q); injection H as <-; cbn [l_c l_k l_dL l_out]; rewrite ?app_length, ?Nat.add_1_r; auto.
Qed.
Lemma snap_spec dL0 : passSpec 1 dL0 (snapPass f dL0).
Proof.
  intros l l'. unfold snapPass. rewrite Rmult_1_l. destruct (ctlStep f (l_dL l) (l_c l)) as [q c0|]; [|discriminate].
  intros H. exists q, c0. split; [reflexivity|]. destruct (lrepeats q); injection H as <-; cbn [l_c l_k l_dL l_out]; rewrite ?app_length, ?Nat.add_1_r; auto.
Qed.
Definition atOrigin (dL0 : R) (l : lst S (nst S Mat)) : Prop :=
  d_U (l_c l) = v0 /\ d_L (l_c l) = 0 /\ n_head (d_solver (l_c l)) = false /\ (d_first (l_c l) = true -> n_U (d_solver (l_c l)) = v0) /\ 0 < l_dL l <= dL0.
Lemma origin_step sg dL0 l : sg = 1 \/ sg = - 1 -> atOrigin dL0 l -> exists q c0, ctlStep f (sg * l_dL l) (l_c l) = Done q c0 /\
  (q = Success \/ lrepeats q = true) /\ n_head (d_solver c0) = false /\ (q = Success -> d_L c0 <> 0) /\
  forall e, (forall l s, l <> 0 -> Rabs l <= e -> n_U s = v0 -> n_L s = l -> n_head s = false -> exists s', newtonSolve p o s = Done Success s') ->
  l_dL l <= e -> q = Success.
Proof.
  intros Hs (U0 & L0 & H0 & F0 & D0).
  pose proof (ctlStep_cases f (sg * l_dL l) (l_c l)) as C.
  set (s := if d_first (l_c l) then i_setLoad f (d_L (l_c l) + sg * l_dL l) (d_solver (l_c l)) else i_setDisplacement f (d_U (l_c l)) (i_setLoad f (d_L (l_c l) + sg * l_dL l) (d_solver (l_c l)))) in *.
  assert (A : n_U s = v0 /\ n_L s = sg * l_dL l /\ n_head s = false).
  { unfold s. destruct (d_first (l_c l)); cbn; rewrite L0, Rplus_0_l; [rewrite (F0 eq_refl)|rewrite U0]; auto. }
  destruct A as (A1 & A2 & A3). destruct (calm_solve s Hn A3) as (q & s' & E & K1 & K2).
  assert (ES : exists c0, ctlStep f (sg * l_dL l) (l_c l) = Done q c0).
  { unfold ctlStep. cbv zeta. fold s. cbn [i_solve newtonIface]. rewrite E. destruct (status_eqb q Success); eauto. }
  destruct ES as (c0 & ES). rewrite ES in C. destruct C as (_ & _ & t & C1 & C2 & C3 & _). change (newtonSolve p o s = Done q t) in C1.
  rewrite E in C1. injection C1 as <-. exists q, c0. split; [exact ES|]. split; [exact K2|]. split; [rewrite C2; exact K1|]. split.
  - intros ->. destruct (C3 eq_refl) as (-> & _). rewrite L0. destruct Hs as [->| ->]; lra.
  - intros e He Hle. destruct (He (sg * l_dL l) s) as (s2 & E2); try assumption.
    + destruct Hs as [->| ->]; lra.
    + destruct Hs as [->| ->]; unfold Rabs; destruct (Rcase_abs _); lra.
    + congruence.
Qed.
Lemma first_inv sg dL0 pass t l : sg = 1 \/ sg = - 1 -> 0 < dL0 -> passSpec sg dL0 pass -> n_U t = v0 -> n_head t = false ->
  reachedBy pass (mkLS (ctlNew t) dL0 0 false 0 []) l -> (l_k l = O -> atOrigin dL0 l) /\ (l_k l = 1%nat -> d_L (l_c l) <> 0) /\ length (l_out l) = l_k l.
Proof.
  intros Hs Hd HP Ht Hh R. induction R as [|l l' R IH P].
  - split; [|split; [discriminate|reflexivity]]. intros _. unfold atOrigin. cbn. repeat split; auto; lra.
  - destruct IH as (I0 & I1 & I2). destruct (HP l l' P) as (q & c0 & E & Ec & K).
    assert (FL : q <> Success -> d_U c0 = d_U (l_c l) /\ d_L c0 = d_L (l_c l)).
    { intros N. apply (C47_failed_step f (sg * l_dL l)). left. exists q. auto. }
    pose proof (ctlStep_cases f (sg * l_dL l) (l_c l)) as C. rewrite E in C. destruct C as (_ & Cf & _).
    destruct (lrepeats q) eqn:Q.
    + destruct K as (K1 & K2 & K3). assert (NQ : q <> Success) by (intros ->; discriminate). destruct (FL NQ) as (F1 & F2). rewrite K1, K3. split; [|split; [|exact I2]].
      * intros Z. specialize (I0 Z). destruct (origin_step sg dL0 l Hs I0) as (q' & c' & E' & _ & E2 & _). rewrite E in E'. injection E' as <- <-.
        destruct I0 as (U0 & L0 & H0 & F0 & D0). unfold atOrigin. rewrite Ec, F1, F2, K2, Cf. repeat split; auto; try lra; discriminate.
      * intros Z. rewrite Ec, F2. exact (I1 Z).
    + destruct K as (K & K3). rewrite K, K3. split; [discriminate|]. split; [|congruence]. intros Z. assert (Z0 : l_k l = O) by lia. destruct (origin_step sg dL0 l Hs (I0 Z0)) as (q' & c' & E' & A1 & _ & A2 & _).
      rewrite E in E'. injection E' as <- <-. rewrite Ec. destruct A1 as [A1|A1]; [exact (A2 A1)|congruence].
Qed.
Lemma frustRun_reached dL0 steps fuel l0 : forall l l', reachedBy (frustPass f dL0) l0 l -> frustRun f dL0 steps fuel l = LNext l' -> reachedBy (frustPass f dL0) l0 l'.
Proof.
  induction fuel as [|fuel IH]; intros l l' R; cbn [frustRun]; destruct (l_k l <? steps)%nat; try discriminate; try (intros H; injection H as <-; exact R).
  destruct (frustPass f dL0 l) as [l2| |] eqn:P; try discriminate. apply IH. eapply ReStep; eauto.
Qed.
Lemma snapRun_reached strain Emax dL0 steps fuel l0 : forall l l' e, reachedBy (snapPass f dL0) l0 l -> snapRun f strain Emax dL0 steps fuel e l = LNext l' -> reachedBy (snapPass f dL0) l0 l'.
Proof.
  induction fuel as [|fuel IH]; intros l l' e R; cbn [snapRun]; destruct (Rleb e Emax && (l_k l <? steps)%nat); try discriminate; try (intros H; injection H as <-; exact R).
  destruct (snapPass f dL0 l) as [l2| |] eqn:P; try discriminate. apply IH. eapply ReStep; eauto.
Qed.
Lemma snapRun_any strain Emax dL0 fuel : forall l l', 0 <= Emax -> l_k l = O -> snapRun f strain Emax dL0 1 fuel 0 l = LNext l' -> (1 <= l_k l')%nat.
Proof.
  induction fuel as [|fuel IH]; intros l l' HE K; cbn [snapRun]; rewrite K, (proj2 (Rleb_true _ _)) by lra; cbn [Nat.ltb Nat.leb andb]; [discriminate|].
  destruct (snapPass f dL0 l) as [l2| |] eqn:P; try discriminate. destruct (snap_spec dL0 l l2 P) as (q & c0 & _ & _ & X).
  destruct (lrepeats q); destruct X as (X & _); rewrite K in X.
  - rewrite X. cbn [Nat.ltb Nat.leb]. apply IH; assumption.
  - rewrite X. cbn [Nat.ltb Nat.leb]. destruct fuel; cbn [snapRun]; rewrite X; cbn [Nat.ltb Nat.leb]; rewrite andb_false_r; intros H; injection H as <-; lia.
Qed.
(** Near a regular origin both programs write their first point whatever the increment dL0 is: it is halved until the step succeeds. The point
    is in equilibrium to the tolerance at the load -dL0 / 2^j (snapping: dL0 / 2^j). *)
Theorem C123_first_point dL0 t strain Emax : 0 < dL0 -> n_U t = v0 -> n_head t = false -> 0 <= Emax ->
  (exists fuel l u j, frustMain f dL0 1 fuel t = LNext l /\ l_out l = [(u, - dL0 / 2 ^ j)] /\ balanced p o (- dL0 / 2 ^ j) v0 u) /\
  (exists fuel l u j, snapMain f strain Emax dL0 1 fuel t = LNext l /\ l_out l = [(u, dL0 / 2 ^ j)] /\ balanced p o (dL0 / 2 ^ j) v0 u).
Proof.
  intros Hd Ht Hh HE. destruct short_first as (eps & Pe & SF).
  assert (MM : exists m : nat, dL0 <= 2 ^ m * eps).
  { destruct (Pow_x_infinity 2 ltac:(rewrite Rabs_pos_eq; lra) (dL0 / eps)) as (m & Hm). exists m. specialize (Hm m (le_n m)). rewrite Rabs_pos_eq in Hm by (apply pow_le; lra).
    apply (Rmult_le_reg_r (/ eps)); [apply Rinv_0_lt_compat; lra|]. rewrite Rmult_assoc, Rinv_r, Rmult_1_r by lra. lra. }
  destruct MM as (m & Hm).
  assert (QT : forall sg pass, sg = 1 \/ sg = - 1 -> passSpec sg dL0 pass ->
    forall l, reachedBy pass (mkLS (ctlNew t) dL0 0 false 0 []) l -> (l_k l < 1)%nat -> quiet f eps sg l).
  { intros sg pass Hs HP l R K. destruct (first_inv sg dL0 pass t l Hs Hd HP Ht Hh R) as (I0 & _). specialize (I0 ltac:(lia)).
    destruct (origin_step sg dL0 l Hs I0) as (q & c0 & E & _ & _ & _ & A). exists q, c0. split; [exact E|]. intros Hle. rewrite (A eps SF Hle). reflexivity. }
  assert (ONE : forall d out, length out = 1%nat -> follows p o d v0 0 out -> snd (last out (v0, 0)) <> 0 ->
    exists u j, out = [(u, d / 2 ^ j)] /\ balanced p o (d / 2 ^ j) v0 u).
  { intros d [|[u l] [|]] L1 F N; try discriminate. cbn in F, N. destruct F as ([(_ & E)|((j & E) & B)] & _); [congruence|]. rewrite Rplus_0_l in E. subst l. eauto. }
  destruct (C123_terminates f dL0 eps 1 m t strain Emax Hd Hm) as (T1 & T2). split.
  - destruct (T1 (QT (- 1) _ ltac:(auto) (frust_spec dL0))) as (l & E). exists (1 * (m + 1))%nat, l.
    destruct (C119_frustrum_points_partial p o Hn ltac:(lia) dL0 1 _ t l Ht E) as (P1 & P2 & P3).
    pose proof (frustRun_reached dL0 1 _ _ _ _ (ReStart _ _) E) as R. destruct (first_inv (- 1) dL0 _ t l ltac:(auto) Hd (frust_spec dL0) Ht Hh R) as (_ & I1 & I2).
    specialize (I1 ltac:(lia)). destruct (ONE _ _ P1 P2 ltac:(rewrite P3; exact I1)) as (u & j & O1 & O2). exists u, j.
    replace (- 1 * dL0) with (- dL0) in * by ring. auto.
  - destruct (T2 (QT 1 _ ltac:(auto) (snap_spec dL0))) as (l & E). exists (1 * (m + 1))%nat, l.
    destruct (C119_snapping_points_partial p o Hn ltac:(lia) strain Emax dL0 1 _ t l Ht HE E) as (P1 & P2 & P3 & _).
    pose proof (snapRun_reached strain Emax dL0 1 _ _ _ _ _ (ReStart _ _) E) as R. destruct (first_inv 1 dL0 _ t l ltac:(auto) Hd (snap_spec dL0) Ht Hh R) as (_ & I1 & I2).
    assert (K : (1 <= l_k l)%nat) by (eapply snapRun_any; [exact HE| |exact E]; reflexivity).
    assert (N1 : length (l_out l) = 1%nat) by lia. specialize (I1 ltac:(lia)). destruct (ONE _ _ N1 P2 ltac:(rewrite P3; exact I1)) as (u & j & O1 & O2). exists u, j.
    rewrite Rmult_1_l in O1, O2. auto.
Qed.
End First.
Print Assumptions C123_first_point.
(** a spring of stiffness 2 whose assembly fails when the imbalance of the forces exceeds 3/2; its equations are regular within the distance
    1/4 of the origin for loads up to 1 *)
Definition exFirm : nprob VS_R R := @mkNProb VS_R R 1 1
  (fun l u => if Rltb (3/2) (Rabs (l - 2 * u)) then No else Yes (l - 2 * u)) (fun u _ => Yes 2) (fun m => true) (fun m f => Some (f / 2)) true.
Example C123_example dL0 : 0 < dL0 ->
  (exists fuel l u j, frustMain (newtonIface exFirm (exOpt 4 (1/2) 2)) dL0 1 fuel newtonNew = LNext l /\ l_out l = [(u, - dL0 / 2 ^ j)] /\ balanced exFirm (exOpt 4 (1/2) 2) (- dL0 / 2 ^ j) (v0 : VS_R) u) /\
  (exists fuel l u j, snapMain (newtonIface exFirm (exOpt 4 (1/2) 2)) (fun _ => 0) 1 dL0 1 fuel newtonNew = LNext l /\ l_out l = [(u, dL0 / 2 ^ j)] /\ balanced exFirm (exOpt 4 (1/2) 2) (dL0 / 2 ^ j) (v0 : VS_R) u).
Proof.
  intros Hd.
  assert (AB : forall x y, Rabs x <= y -> - y <= x <= y) by (intros x y; unfold Rabs; destruct (Rcase_abs x); lra).
  apply (@C123_first_point VS_R R exFirm (exOpt 4 (1/2) 2) (fun _ d => 2 * d) (fun l u => l - 2 * u) (1/4) (1/2) 1 1 1); try reflexivity; try lra; try exact Hd.
  - unfold tame. repeat split; intros; cbn; try discriminate. destruct (Rltb _ _); discriminate.
  - cbn. lia.
  - unfold tolOr, exOpt. cbn. match goal with |- context [if ?b then _ else _] => destruct b end; lra.
  - unfold tolOr, exOpt. cbn. match goal with |- context [if ?b then _ else _] => destruct b end; lra.
  - intros l Hl. split; [reflexivity| |].
    + intros u. rewrite norm_R. cbn. intros Hu. apply AB in Hu. apply AB in Hl. replace (Rltb (3/2) (Rabs (l - 2 * u))) with false; [reflexivity|].
      symmetry. apply Rltb_false. unfold Rabs. destruct (Rcase_abs _); lra.
    + intros u du _. exists 2. split; [reflexivity|]. split; [reflexivity|]. split.
      * intros g. exists (g / 2). split; [reflexivity|]. rewrite !norm_R. split; [change (2 * (g / 2) = g :> R); field|]. unfold Rdiv. rewrite Rabs_mult, (Rabs_pos_eq (/ 2)) by lra. lra.
      * intros d _. match goal with |- norm ?v <= _ => replace v with (v0 : VS_R) by (cbn; ring) end. rewrite norm_0, Rmult_1_l. apply Rmult_le_pos; apply norm_pos.
  - intros l _. rewrite norm_R. cbn. rewrite Rmult_0_r, Rminus_0_r. lra.
  - intros l _ H. cbn. rewrite Rmult_0_r, Rminus_0_r. exact H.
Qed.
(** Neither program gives up: if the residual can never be assembled, the increment is halved for ever *)
Section Forever.
Context {S : VS} {Mat : Type}.
Variables (p : nprob S Mat) (o : nopts).
Hypothesis HN : forall l u, np_res p l u = No.
Hypothesis Hn : np_nl p = true.
Lemma never_step dl c0 : n_head (d_solver c0) = false -> exists c1, ctlStep (newtonIface p o) dl c0 = Done AssemblyError c1 /\ n_head (d_solver c1) = false.
Proof.
  intros H. assert (N : forall s, n_head s = false -> exists s', newtonSolve p o s = Done AssemblyError s' /\ n_head s' = false).
  { intros s Hs. unfold newtonSolve. rewrite Hn. unfold solveNonlinear_, start_. rewrite Hs. unfold computeResidual. cbn [n_L addLog]. rewrite HN. cbn. eexists. split; [reflexivity|exact Hs]. }
  unfold ctlStep. cbv zeta. cbn [i_solve i_setLoad i_setDisplacement newtonIface]. destruct (d_first c0).
  - destruct (N (setLoad (d_L c0 + dl) (d_solver c0)) H) as (s' & E & E2). rewrite E. cbn. eexists. split; [reflexivity|exact E2].
  - destruct (N (setDisplacement (d_U c0) (setLoad (d_L c0 + dl) (d_solver c0))) H) as (s' & E & E2). rewrite E. cbn. eexists. split; [reflexivity|exact E2].
Qed.
Theorem C123_forever dL0 steps t strain Emax fuel : n_head t = false -> 0 <= Emax ->
  frustMain (newtonIface p o) dL0 (Datatypes.S steps) fuel t = LFuel /\ snapMain (newtonIface p o) strain Emax dL0 (Datatypes.S steps) fuel t = LFuel.
Proof.
  intros Ht HE. unfold frustMain, snapMain. set (l0 := mkLS _ _ _ _ _ _). assert (H0 : n_head (d_solver (l_c l0)) = false) by exact Ht. assert (K0 : l_k l0 = O) by reflexivity.
  clearbody l0. revert l0 H0 K0. induction fuel as [|fuel IH]; intros l0 H0 K0; cbn [frustRun snapRun]; rewrite K0, (proj2 (Rleb_true _ _)) by lra; cbn [Nat.ltb Nat.leb andb]; [auto|].
  unfold frustPass, snapPass. destruct (never_step (- l_dL l0) (l_c l0) H0) as (c1 & -> & H1). destruct (never_step (l_dL l0) (l_c l0) H0) as (c2 & -> & H2).
  cbn [lrepeats l_k]. split; [apply IH; assumption|rewrite K0; cbn [Nat.ltb Nat.leb]; apply IH; [assumption|reflexivity]].
Qed.
End Forever.
Print Assumptions C123_forever.
Example C123_forever_example : (forall l u, np_res (@mkNProb VS_R R 1 1 (fun _ _ => No) (fun _ _ => Yes 2) (fun _ => true) (fun _ g => Some (g / 2)) true) l u = No) /\
  n_head (newtonNew : nst VS_R R) = false.
Proof. split; reflexivity. Qed.
