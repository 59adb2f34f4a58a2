(** Properties of the Newton solver: C38-C41. *)
From Verif Require Import VS Status RunTac Static StaticRun.
Local Open Scope R_scope.

Section Lemmas.
Context {S : VS} {Mat : Type}.
Notation nst := (nst S Mat).
Variable p : nprob S Mat.
Variable o : nopts.
Implicit Types s : nst.
Lemma ratioLt_pos a b tol : 0 < b -> (ratioLt a b tol = true <-> a < tol * b).
Proof.
  intros Hb. unfold ratioLt. destruct (Reqb b 0) eqn:E; [apply Reqb_true in E; lra|]. rewrite Rltb_true.
  replace a with (a / b * b) at 2 by (field; lra). split; intros H.
  - apply Rmult_lt_compat_r; assumption.
  - apply Rmult_lt_reg_r in H; assumption.
Qed.
Lemma orOne_pos r : 0 <= r -> 0 < orOne r.
Proof. intros H. unfold orOne. destruct (Reqb r 0) eqn:E; [lra|apply Reqb_false in E; lra]. Qed.
Lemma computeResidual_ok u s r s' : computeResidual p u s = Done r s' ->
  np_res p (n_L s) u = Yes r /\ s' = addLog (EvRes u (n_L s) None) s.
Proof. unfold computeResidual. cbn. destruct (np_res p (n_L s) u); intros H; inversion H; auto. Qed.
Lemma iteration_ok s s' : newtonIteration p o s = Done tt s' ->
  exists m x r, np_jac p (n_U s +v n_DU s) (n_dU s) = Yes m /\ np_factor p m = true /\ np_solve p m (n_R s) = Some x /\
    np_res p (n_L s) (n_U s +v (n_DU s +v no_relax o *v x)) = Yes r /\
    s' = mkN (n_U s) (n_DU s +v no_relax o *v x) x r (n_L s) (n_head s) (n_it s) (norm r) (n_ini s) (n_stat s)
      (EvRes (n_U s +v (n_DU s +v no_relax o *v x)) (n_L s) None :: EvSolve m (n_R s) None :: EvFact m None ::
       EvJac (n_U s +v n_DU s) (n_dU s) None :: n_log s).
Proof.
  unfold newtonIteration, computeJacobian, factorize, solveSystem, computeResidual.
  destruct (np_jac p (n_U s +v n_DU s) (n_dU s)) as [m| |] eqn:E1; cbn; try discriminate.
  destruct (np_factor p m) eqn:E2; cbn; try discriminate.
  destruct (np_solve p m (n_R s)) as [x|] eqn:E3; cbn; try discriminate.
  destruct (np_res p (n_L s) (n_U s +v (n_DU s +v no_relax o *v x))) as [r| |] eqn:E4; cbn; try discriminate.
  intros H. exists m, x, r. do 4 (split; [first [assumption|reflexivity]|]). apply (f_equal stateOf) in H. cbn in H. rewrite <- H. reflexivity.
Qed.
Lemma start_ok s s' : start_ p s = Done tt s' ->
  exists r0 r, let du := if n_head s then n_DU s else v0 in
    np_res p (n_L s) (n_U s) = Yes r0 /\ np_res p (n_L s) (n_U s +v du) = Yes r /\
    n_U s' = n_U s /\ n_DU s' = du /\ n_dU s' = v0 /\ n_R s' = r /\ n_L s' = n_L s /\ n_head s' = false /\
    n_ini s' = orOne (norm r0) /\ n_stat s' = n_stat s.
Proof.
  unfold start_. destruct (n_head s) eqn:Eh; cbv zeta.
  - destruct (computeResidual p (n_U s +v n_DU s) s) as [r s1|] eqn:E1; cbn [rbind]; [|discriminate].
    destruct (computeResidual_ok _ _ _ _ E1) as [R1 ->]. cbn.
    unfold computeResidual. cbn. destruct (np_res p (n_L s) (n_U s)) as [r0| |] eqn:E2; cbn; try discriminate.
    intros H. apply (f_equal stateOf) in H. cbn in H. subst s'. exists r0, r. cbn. repeat split; assumption.
  - unfold computeResidual. cbn. destruct (np_res p (n_L s) (n_U s)) as [r| |] eqn:E1; cbn; try discriminate.
    intros H. apply (f_equal stateOf) in H. cbn in H. subst s'. exists r, r. cbn.
    replace (n_U s +v v0) with (n_U s) by vring. repeat split; assumption.
Qed.
Lemma start_log s : exists l, n_log (stateOf (start_ p s)) = l ++ n_log s /\
    match start_ p s with
    | Done _ s' => Forall (fun e => nevExc e = None) l /\ n_it s' = n_it s
    | Threw e _ => exists x l', l = x :: l' /\ nevExc x = Some e /\ Forall (fun e => nevExc e = None) l' /\
        exists u, x = EvRes u (n_L s) (Some e)
    end.
Proof.
  unfold start_. destruct (n_head s); cbv zeta; unfold computeResidual; cbn.
  - destruct (np_res p (n_L s) (n_U s +v n_DU s)) as [r| |e] eqn:E1; cbn.
    + destruct (np_res p (n_L s) (n_U s)) as [r0| |e] eqn:E2; cbn; (eexists [_; _]; split; [reflexivity|]).
      * auto.
      * eexists _, _. split; [reflexivity|]. split; [reflexivity|]. eauto.
      * eexists _, _. split; [reflexivity|]. split; [reflexivity|]. eauto.
    + eexists [_]. split; [reflexivity|]. eexists _, _. split; [reflexivity|]. split; [reflexivity|]. eauto.
    + eexists [_]. split; [reflexivity|]. eexists _, _. split; [reflexivity|]. split; [reflexivity|]. eauto.
  - destruct (np_res p (n_L s) (n_U s)) as [r| |e] eqn:E1; cbn; (eexists [_]; split; [reflexivity|]).
    + auto.
    + eexists _, _. split; [reflexivity|]. split; [reflexivity|]. eauto.
    + eexists _, _. split; [reflexivity|]. split; [reflexivity|]. eauto.
Qed.
Lemma loop_ok : forall n i s s', n <> O -> newtonLoop p o n i s = Done tt s' ->
  exists r, np_res p (n_L s) (n_U s') = Yes r /\ n_U s' = n_U s +v n_DU s' /\ n_R s' = r /\ n_rnorm s' = norm r /\
    n_ini s' = n_ini s /\ n_L s' = n_L s /\ newtonTest o s' = true.
Proof.
  induction n as [|n IH]; intros i s s' Hn H; [contradiction|]. cbn [newtonLoop] in H.
  destruct (newtonIteration p o (setIt i s)) as [[] s1|] eqn:E1; cbn [rbind] in H; [|discriminate].
  destruct (iteration_ok _ _ E1) as (m & x & r & J & F & X & Rr & ->). cbn in J, X, Rr.
  set (s1 := mkN _ _ _ _ _ _ _ _ _ _ _) in H.
  destruct (newtonTest o s1) eqn:Et.
  - apply (f_equal stateOf) in H. cbn [stateOf] in H. subst s'. exists r. cbn. repeat split; [exact Rr|]. exact Et.
  - destruct n as [|n]; [discriminate|]. destruct (IH _ _ _ (Nat.neq_succ_0 n) H) as (r' & H1). exists r'. exact H1.
Qed.
End Lemmas.

(** ** C38 *)
(** A tolerance [x] as the options describe it: -1 stands for the general tolerance [y]. *)
Definition tolOr (x y : R) : R := if Req_EM_T x (-1) then y else x.
Lemma effTolF_spec o : effTolF o = tolOr (no_tolF o) (no_tol o).
Proof. unfold effTolF, tolOr, Reqb. destruct (Req_EM_T (no_tolF o) (-1)); reflexivity. Qed.
Lemma effTolU_spec o : effTolU o = tolOr (no_tolU o) (no_tol o).
Proof. unfold effTolU, tolOr, Reqb. destruct (Req_EM_T (no_tolU o) (-1)); reflexivity. Qed.
(** [solve] answered Success on a nonlinear problem (at least one iteration allowed): the
    residual at solution() is below TolF times the residual at the start (1 if that is zero), the
    last update is below TolU times update(), and solution() is the start plus update(). Missing:
    MaxIterations = 0 and the linear solve. *)
Theorem C38_newton_success_partial {S : VS} {Mat} (p : nprob S Mat) o s s' :
  np_nl p = true -> (1 <= no_maxIt o)%nat -> newtonSolve p o s = Done Success s' ->
  exists r r0, np_res p (n_L s) (n_U s) = Yes r0 /\ np_res p (n_L s) (n_U s') = Yes r /\
    norm r < tolOr (no_tolF o) (no_tol o) * (if Reqb (norm r0) 0 then 1 else norm r0) /\
    (0 <= no_relax o -> no_relax o * norm (n_dU s') < tolOr (no_tolU o) (no_tol o) * norm (n_DU s')) /\
    n_U s' = n_U s +v n_DU s' /\ converged s' = true /\ n_L s' = n_L s.
Proof.
  rewrite <- effTolF_spec, <- effTolU_spec. intros Hnl Hm H. unfold newtonSolve, solveNonlinear_ in H. rewrite Hnl in H.
  destruct (start_ p s) as [[] s1|e s1] eqn:E1; cbn [rbind guarded] in H.
  2: { destruct (catchStatus e) eqn:Ec; [|discriminate]. inversion H; subst. exfalso. destruct e as [n| |]; try discriminate.
       cbn in Ec. destruct n as [|[[]|[]|]|]; discriminate. }
  destruct (start_ok _ _ _ E1) as (r0 & r1 & R0 & R1 & HU & HDU & HdU & HR & HL & Hh & Hi & Hst).
  destruct (newtonLoop p o (no_maxIt o) 0 s1) as [[] s2|e s2] eqn:E2; cbn [guarded] in H.
  2: { destruct (catchStatus e) eqn:Ec; [|discriminate]. inversion H; subst. exfalso. destruct e as [n| |]; try discriminate.
       cbn in Ec. destruct n as [|[[]|[]|]|]; discriminate. }
  apply (f_equal stateOf) in H. cbn [stateOf] in H. subst s'.
  assert (Hz : no_maxIt o <> O) by lia. destruct (loop_ok p o _ _ _ _ Hz E2) as (r & Rr & U2 & R2 & N2 & I2 & L2 & T2).
  exists r, r0. rewrite HL in Rr. cbn. split; [exact R0|]. split; [exact Rr|].
  unfold newtonTest in T2. apply andb_true_iff in T2. destruct T2 as [TU TF].
  rewrite I2, Hi, N2 in TF. apply ratioLt_pos in TF; [|apply orOne_pos, norm_pos]. split; [exact TF|].
  split.
  - intros Hr. unfold ratioLt in TU. destruct (Reqb (norm (n_DU s2)) 0) eqn:E.
    + apply Rltb_true in TU. pose proof (norm_pos (n_dU s2)). nra.
    + apply Reqb_false in E. pose proof (norm_pos (n_DU s2)). assert (0 < norm (n_DU s2)) as P by lra.
      apply (ratioLt_pos _ _ (effTolU o) P). unfold ratioLt. destruct (Reqb (norm (n_DU s2)) 0) eqn:E'; [apply Reqb_true in E'; lra|exact TU].
  - split; [rewrite U2, HU; reflexivity|]. split; [reflexivity|]. rewrite <- HL. exact L2.
Qed.
Print Assumptions C38_newton_success_partial.
(** the force u^2 against the load: from u = 2 at load 1 one iteration leads to 5/4 *)
Definition exSquare : nprob VS_R R := @mkNProb VS_R R 1 1
  (fun l u => if Rltb u 0 then No else Yes (l - u * u)) (fun u _ => if Rltb u 0 then Throws XOther else Yes (2 * u)) (fun m => negb (Reqb m 0))
  (fun m f => if Reqb m 0 then None else Some (f / m)) true.
Definition exOpt (n : nat) (tolF tolU : R) : nopts := mkNOpts (1/1000) tolF tolU n 1.
Example C38_example : exists s, newtonSolve exSquare (exOpt 4 (1/2) 2) (setSolution (2 : VS_R) 1 newtonNew) = Done Success s /\
  n_U s = 5/4 /\ n_it s = O.
Proof. eexists. split; [sev|]. rcbv. repeat split; lra. Qed.
(** with MaxIterations = 0 the answer is Success at any start; the answer of a linear solve leaves
    update() at its old value, so that solution() is not start + update() *)
Theorem C38_refuted : exists s s' : nst VS_R R,
  newtonSolve exSquare (exOpt 0 (1/2) 2) (setSolution (2 : VS_R) 1 newtonNew) = Done Success s /\ n_U s = 2 /\
  np_res exSquare (n_L s) (n_U s) = Yes (-3) /\
  newtonSolve (@mkNProb VS_R R 2 6 (fun _ _ => No) (fun _ _ => No) (fun _ => true) (fun m f => Some (f / m)) false) (exOpt 4 (1/2) 2) newtonNew = Done Success s' /\
  n_U s' = 3 /\ n_DU s' = 0.
Proof.
  eexists. eexists. split; [sev|]. split; [rcbv; reflexivity|]. split; [rsimp; f_equal; lra|]. split; [sev|]. rcbv. split; [lra|reflexivity].
Qed.
Print Assumptions C38_refuted.

(** ** C39 *)
Definition isAssembly {S Mat} (x : nev S Mat) : bool := match x with EvRes _ _ _ | EvJac _ _ _ => true | _ => false end.
Definition isJac {S Mat} (x : nev S Mat) : bool := match x with EvJac _ _ _ => true | _ => false end.
Definition okEv {S Mat} (x : nev S Mat) : Prop := nevExc x = None.
(** a failing evaluation is the latest of the evaluations l *)
Definition failedAt {S Mat} (x : nev S Mat) (l : list (nev S Mat)) : Prop := exists l', l = x :: l' /\ Forall okEv l'.
Section Logs.
Context {S : VS} {Mat : Type}.
Notation nst := (nst S Mat).
Variable p : nprob S Mat.
Variable o : nopts.
Implicit Types s : nst.
(** the exception [e] comes from the failing evaluation [x] *)
Definition raisedBy (e : exc) (x : nev S Mat) : Prop :=
  nevExc x = Some e /\
  match x with
  | EvRes u l _ => ansExc (np_res p l u) = Some e
  | EvJac u du _ => ansExc (np_jac p u du) = Some e
  | EvFact m _ => np_factor p m = false /\ e = XInt 3
  | EvSolve m f _ => np_solve p m f = None /\ e = XInt 3
  end.
Lemma start_raised s : exists l, n_log (stateOf (start_ p s)) = l ++ n_log s /\ Forall (fun e => isJac e = false) l /\
    n_U (stateOf (start_ p s)) = n_U s /\ n_L (stateOf (start_ p s)) = n_L s /\
    match start_ p s with
    | Done _ s' => Forall okEv l /\ 0 < n_ini s'
    | Threw e _ => exists x, failedAt x l /\ raisedBy e x
    end.
Proof.
  unfold start_. destruct (n_head s); cbv zeta; unfold computeResidual; cbn.
  - destruct (np_res p (n_L s) (n_U s +v n_DU s)) as [r| |e] eqn:E1; cbn.
    + destruct (np_res p (n_L s) (n_U s)) as [r0| |e] eqn:E2; cbn; (eexists [_; _]; split; [reflexivity|]; split; [auto|]; split; [auto|]; split; [auto|]).
      * split; [|apply orOne_pos, norm_pos]. repeat constructor.
      * eexists. split; [eexists; split; [reflexivity|repeat constructor]|]. split; [reflexivity|]. cbn. rewrite E2. reflexivity.
      * eexists. split; [eexists; split; [reflexivity|repeat constructor]|]. split; [reflexivity|]. cbn. rewrite E2. reflexivity.
    + eexists [_]; split; [reflexivity|]; split; [auto|]; split; [auto|]; split; [auto|].
      eexists. split; [eexists; split; [reflexivity|repeat constructor]|]. split; [reflexivity|]. cbn. rewrite E1. reflexivity.
    + eexists [_]; split; [reflexivity|]; split; [auto|]; split; [auto|]; split; [auto|].
      eexists. split; [eexists; split; [reflexivity|repeat constructor]|]. split; [reflexivity|]. cbn. rewrite E1. reflexivity.
  - destruct (np_res p (n_L s) (n_U s)) as [r| |e] eqn:E1; cbn; (eexists [_]; split; [reflexivity|]; split; [auto|]; split; [auto|]; split; [auto|]).
    + split; [|apply orOne_pos, norm_pos]. repeat constructor.
    + eexists. split; [eexists; split; [reflexivity|repeat constructor]|]. split; [reflexivity|]. cbn. rewrite E1. reflexivity.
    + eexists. split; [eexists; split; [reflexivity|repeat constructor]|]. split; [reflexivity|]. cbn. rewrite E1. reflexivity.
Qed.
Lemma iteration_raised s : exists l, n_log (stateOf (newtonIteration p o s)) = l ++ n_log s /\
    n_U (stateOf (newtonIteration p o s)) = n_U s /\ n_L (stateOf (newtonIteration p o s)) = n_L s /\ n_ini (stateOf (newtonIteration p o s)) = n_ini s /\
    match newtonIteration p o s with
    | Done _ s' => Forall okEv l /\ length (filter isJac l) = 1%nat /\ n_rnorm s' = norm (n_R s')
    | Threw e _ => exists x, failedAt x l /\ raisedBy e x
    end.
Proof.
  unfold newtonIteration, computeJacobian, factorize, solveSystem, computeResidual.
  destruct (np_jac p (n_U s +v n_DU s) (n_dU s)) as [m| |e] eqn:E1; cbn.
  1: destruct (np_factor p m) eqn:E2; cbn.
  1: destruct (np_solve p m (n_R s)) as [x|] eqn:E3; cbn.
  1: destruct (np_res p (n_L s) (n_U s +v (n_DU s +v no_relax o *v x))) as [r| |e] eqn:E4; cbn.
  1: { eexists [_; _; _; _]. split; [reflexivity|]. do 3 (split; [reflexivity|]). split; [repeat constructor|]. split; reflexivity. }
  1, 2: (eexists [_; _; _; _]; split; [reflexivity|]; do 3 (split; [reflexivity|]); eexists; split; [eexists; split; [reflexivity|repeat constructor]|];
    split; [reflexivity|]; cbn; rewrite E4; reflexivity).
  1: (eexists [_; _; _]; split; [reflexivity|]; do 3 (split; [reflexivity|]); eexists; split; [eexists; split; [reflexivity|repeat constructor]|];
    split; [reflexivity|]; cbn; auto).
  1: (eexists [_; _]; split; [reflexivity|]; do 3 (split; [reflexivity|]); eexists; split; [eexists; split; [reflexivity|repeat constructor]|];
    split; [reflexivity|]; cbn; auto).
  1, 2: (eexists [_]; split; [reflexivity|]; do 3 (split; [reflexivity|]); eexists; split; [eexists; split; [reflexivity|repeat constructor]|];
    split; [reflexivity|]; cbn; rewrite E1; reflexivity).
Qed.
(** the criteria of the solver at the end of a run *)
Definition criteria s : Prop := 0 < norm (n_DU s) /\ no_relax o * norm (n_dU s) < tolOr (no_tolU o) (no_tol o) * norm (n_DU s) /\ norm (n_R s) < tolOr (no_tolF o) (no_tol o) * n_ini s.
Lemma loop_raised : forall n i s, 0 < n_ini s -> exists l, n_log (stateOf (newtonLoop p o n i s)) = l ++ n_log s /\
    match newtonLoop p o n i s with
    | Done _ s' => Forall okEv l
    | Threw e s' =>
      (exists x, failedAt x l /\ raisedBy e x /\ n_U s' = n_U s) \/
      (e = XInt 1 /\ Forall okEv l /\ length (filter isJac l) = n /\ ~ criteria s' /\ n_U s' = n_U s +v n_DU s')
    end.
Proof.
  induction n as [|n IH]; intros i s Hi.
  - exists []. cbn. auto.
  - cbn [newtonLoop]. destruct (iteration_raised (setIt i s)) as (l & Hl & HU & HL & Hn & H1).
    destruct (newtonIteration p o (setIt i s)) as [[] s1|e s1]; cbn [rbind stateOf] in *.
    2: { exists l. split; [exact Hl|]. left. destruct H1 as (x & H1 & H2). exists x. auto. }
    destruct H1 as (H1 & H2 & H3). cbn in HU, HL, Hn, Hl.
    destruct (newtonTest o s1) eqn:Et.
    + exists l. split; [exact Hl|exact H1].
    + destruct n as [|n].
      * exists l. split; [exact Hl|]. right. split; [reflexivity|]. split; [exact H1|]. split; [exact H2|]. cbn. split; [|rewrite HU; reflexivity].
        intros (C1 & C2 & C3). cbn in C1, C2, C3. rewrite <- effTolU_spec in C2. rewrite <- effTolF_spec in C3. unfold newtonTest in Et. apply andb_false_iff in Et. destruct Et as [Et|Et].
        -- apply ratioLt_pos in C2; [|exact C1]. congruence.
        -- rewrite <- H3 in C3. apply ratioLt_pos in C3; [|rewrite Hn; exact Hi]. congruence.
      * destruct (IH (Datatypes.S i) s1) as (l2 & Hl2 & H4); [rewrite Hn; exact Hi|].
        exists (l2 ++ l). split; [rewrite Hl2, Hl, app_assoc; reflexivity|].
        destruct (newtonLoop p o (Datatypes.S n) (Datatypes.S i) s1) as [[] s2|e s2].
        -- apply Forall_app. auto.
        -- destruct H4 as [(x & (l' & -> & H5) & H6 & H7)|(H4 & H5 & H6 & H7 & H8)].
           ++ left. exists x. split; [exists (l' ++ l); split; [reflexivity|apply Forall_app; auto]|]. split; [exact H6|rewrite H7; exact HU].
           ++ right. split; [exact H4|]. split; [apply Forall_app; auto|]. split; [rewrite filter_app, app_length, H6, H2; lia|].
              split; [exact H7|]. rewrite H8, HU. reflexivity.
Qed.
Lemma linear_raised s : exists l, n_log (stateOf (solveLinear_ p s)) = l ++ n_log s /\
    match solveLinear_ p s with
    | Done _ s' => Forall okEv l
    | Threw e s' => exists x, failedAt x l /\ raisedBy e x /\ n_U s' = n_U s
    end.
Proof.
  unfold solveLinear_, factorize, solveSystem. destruct (np_factor p (np_lin p)) eqn:E1; cbn.
  - destruct (np_solve p (np_lin p) (np_force p)) eqn:E2; cbn; (eexists [_; _]; split; [reflexivity|]).
    + repeat constructor.
    + eexists. split; [eexists; split; [reflexivity|repeat constructor]|]. repeat split; auto.
  - eexists [_]; split; [reflexivity|]. eexists. split; [eexists; split; [reflexivity|repeat constructor]|]. repeat split; auto.
Qed.
(** any run: either all evaluations worked, or the last one failed and gives the exception *)
Lemma solve_raised s : exists l, n_log (stateOf (if np_nl p then solveNonlinear_ p o s else solveLinear_ p s)) = l ++ n_log s /\
    match (if np_nl p then solveNonlinear_ p o s else solveLinear_ p s) with
    | Done _ s' => Forall okEv l
    | Threw e s' =>
      (exists x, failedAt x l /\ raisedBy e x /\ n_U s' = n_U s) \/
      (e = XInt 1 /\ np_nl p = true /\ Forall okEv l /\ length (filter isJac l) = no_maxIt o /\ ~ criteria s' /\ n_U s' = n_U s +v n_DU s')
    end.
Proof.
  destruct (np_nl p).
  - unfold solveNonlinear_. destruct (start_raised s) as (l1 & Hl1 & Hj1 & HU1 & HL1 & H1).
    destruct (start_ p s) as [[] s1|e s1]; cbn [rbind stateOf] in *.
    + destruct H1 as [H1 Hi]. destruct (loop_raised (no_maxIt o) 0 s1 Hi) as (l2 & Hl2 & H2).
      exists (l2 ++ l1). split; [rewrite Hl2, Hl1, app_assoc; reflexivity|].
      destruct (newtonLoop p o (no_maxIt o) 0 s1) as [[] s2|e s2].
      * apply Forall_app. auto.
      * destruct H2 as [(x & (l' & -> & H5) & H6 & H7)|(H4 & H5 & H6 & H7 & H8)].
        -- left. exists x. split; [exists (l' ++ l1); split; [reflexivity|apply Forall_app; auto]|]. split; [exact H6|congruence].
        -- right. split; [exact H4|]. split; [reflexivity|]. split; [apply Forall_app; auto|].
           assert (Z : filter isJac l1 = []) by (clear -Hj1; induction Hj1 as [|x l Hx _ IH]; cbn; [reflexivity|rewrite Hx; exact IH]).
           split; [rewrite filter_app, app_length, H6, Z; cbn; lia|]. split; [exact H7|congruence].
    + exists l1. split; [exact Hl1|]. left. destruct H1 as (x & H1 & H2). exists x. auto.
  - destruct (linear_raised s) as (l & Hl & H). exists l. split; [exact Hl|]. destruct (solveLinear_ p s); [exact H|left; exact H].
Qed.
End Logs.

(** No exception leaves [solve] (undefined behaviour of a callback excepted), and status() is the
    returned status. *)
Theorem C39_contained {S : VS} {Mat} (p : nprob S Mat) o s :
  (forall l u, np_res p l u <> Throws XUndef) -> (forall u du, np_jac p u du <> Throws XUndef) ->
  exists q s', newtonSolve p o s = Done q s' /\ n_stat s' = q.
Proof.
  intros A1 A2. unfold newtonSolve. destruct (solve_raised p o s) as (l & _ & H).
  destruct (if np_nl p then _ else _) as [[] s1|e s1]; cbn [guarded]; [eauto|].
  assert (C : e <> XUndef).
  { destruct H as [(x & _ & (_ & H) & _)|(-> & _)]; [|discriminate]. intros ->. destruct x as [u l' e|u du e|m e|m f e].
    - destruct (np_res p l' u) eqn:E; try discriminate. cbn in H. injection H as ->. exact (A1 _ _ E).
    - destruct (np_jac p u du) eqn:E; try discriminate. cbn in H. injection H as ->. exact (A2 _ _ E).
    - destruct H. discriminate.
    - destruct H. discriminate. }
  destruct e as [n| |]; cbn [catchStatus]; [|eauto|contradiction]. destruct n as [|[[]|[]|]|]; eauto.
Qed.
Print Assumptions C39_contained.
(** Callbacks that only answer true or false: the status tells which kind of evaluation failed
    (the latest one), NotConverged comes after MaxIterations iterations without failure whose
    result does not meet the criteria, and the other failures leave solution() unchanged. Missing:
    NotConverged changes solution(). *)
Theorem C39_statuses_partial {S : VS} {Mat} (p : nprob S Mat) o s :
  (forall l u e, np_res p l u <> Throws e) -> (forall u du e, np_jac p u du <> Throws e) ->
  exists q s' l, newtonSolve p o s = Done q s' /\ n_log s' = l ++ n_log s /\
    (q = Success -> Forall okEv l) /\
    (q = AssemblyError <-> exists x, failedAt x l /\ isAssembly x = true /\ nevExc x <> None) /\
    (q = SolverError <-> exists x, failedAt x l /\ isAssembly x = false /\ nevExc x <> None) /\
    (q = NotConverged -> Forall okEv l /\ length (filter isJac l) = no_maxIt o /\ ~ criteria o s') /\
    q <> OtherError /\ q <> NotStarted /\
    (q = AssemblyError \/ q = SolverError -> n_U s' = n_U s).
Proof.
  intros A1 A2. unfold newtonSolve. destruct (solve_raised p o s) as (l & Hl & H).
  assert (OK : Forall okEv l -> forall x, failedAt x l -> nevExc x <> None -> False).
  { intros F x (l' & -> & _) N. apply Forall_inv in F. exact (N F). }
  destruct (if np_nl p then _ else _) as [[] s1|e s1]; cbn [guarded stateOf] in *.
  - exists Success, (setStat Success s1), l. split; [reflexivity|]. split; [exact Hl|]. split; [auto|].
    split; [split; [discriminate|]; intros (x & F & _ & N); destruct (OK H x F N)|].
    split; [split; [discriminate|]; intros (x & F & _ & N); destruct (OK H x F N)|].
    repeat split; try discriminate. intros [|]; discriminate.
  - destruct H as [(x & F & (X1 & X2) & HU)|(-> & _ & H1 & H2 & H3 & H4)].
    + assert (U : forall y, failedAt y l -> y = x) by (intros y (l1 & E1 & _); destruct F as (l2 & E2 & _); congruence).
      assert (E : (isAssembly x = true /\ e = XInt 2) \/ (isAssembly x = false /\ e = XInt 3)).
      { destruct x as [u l' ee|u du ee|m ee|m f ee]; cbn.
        - destruct (np_res p l' u) as [| |e'] eqn:E; try discriminate; [cbn in X2; injection X2 as <-; auto|destruct (A1 _ _ _ E)].
        - destruct (np_jac p u du) as [| |e'] eqn:E; try discriminate; [cbn in X2; injection X2 as <-; auto|destruct (A2 _ _ _ E)].
        - destruct X2. auto.
        - destruct X2. auto. }
      assert (NE : nevExc x <> None) by (rewrite X1; discriminate).
      destruct E as [[E1 ->]|[E1 ->]]; cbn [catchStatus]; eexists _, _, l; (split; [reflexivity|]); (split; [exact Hl|]).
      * split; [discriminate|]. split; [split; eauto|].
        split; [split; [discriminate|intros (y & Fy & Ay & _); rewrite (U y Fy) in Ay; congruence]|].
        repeat split; try discriminate. intros _. exact HU.
      * split; [discriminate|].
        split; [split; [discriminate|intros (y & Fy & Ay & _); rewrite (U y Fy) in Ay; congruence]|].
        split; [split; eauto|]. repeat split; try discriminate. intros _. exact HU.
    + cbn [catchStatus]. eexists _, _, l. split; [reflexivity|]. split; [exact Hl|]. split; [discriminate|].
      split; [split; [discriminate|]; intros (x & F & _ & N); destruct (OK H1 x F N)|].
      split; [split; [discriminate|]; intros (x & F & _ & N); destruct (OK H1 x F N)|].
      split; [intros _; repeat split; assumption|]. repeat split; try discriminate. intros [|]; discriminate.
Qed.
Print Assumptions C39_statuses_partial.
(** the three failures; the one of NotConverged changes solution() *)
Theorem C39_refuted : exists s1 s2 s3 s4 : nst VS_R R,
  newtonSolve exSquare (exOpt 4 (1/2) 2) (setSolution (-1 : VS_R) 1 newtonNew) = Done AssemblyError s1 /\ n_U s1 = -1 /\
  newtonSolve exSquare (exOpt 4 (1/2) 2) (setSolution (0 : VS_R) 1 newtonNew) = Done SolverError s2 /\ n_U s2 = 0 /\
  newtonSolve exSquare (exOpt 1 (1/100) 2) (setSolution (2 : VS_R) 1 newtonNew) = Done NotConverged s3 /\ n_U s3 = 5/4 /\
  newtonSolve (@mkNProb VS_R R 1 1 (fun _ u => Yes u) (fun _ _ => Throws XOther) (fun _ => true) (fun m f => Some f) true) (exOpt 4 (1/2) 2) newtonNew = Done OtherError s4.
Proof.
  eexists. eexists. eexists. eexists. split; [sev|]. split; [rcbv; reflexivity|]. split; [sev|]. split; [rcbv; reflexivity|].
  split; [sev|]. split; [rcbv; reflexivity|]. sev.
Qed.
Print Assumptions C39_refuted.

(** ** C40 *)
(** A residual F - K u with exact solves: [solve] answers Success after at most two iterations and
    solution() is the exact solution, with or without a given update, from every start that is
    not itself the solution. Missing: the solution as start. *)
Theorem C40_linear_partial {S : VS} {Mat} (p : nprob S Mat) o (K : Mat) (mul inv : S -> S) (f : S) s :
  np_nl p = true -> linear mul -> (forall x, mul x = v0 -> x = v0) -> (forall g, mul (inv g) = g) ->
  (forall u, np_res p (n_L s) u = Yes (f -v mul u)) -> (forall u du, np_jac p u du = Yes K) -> np_factor p K = true ->
  (forall g, np_solve p K g = Some (inv g)) ->
  no_relax o = 1 -> 0 < tolOr (no_tolF o) (no_tol o) -> 0 < tolOr (no_tolU o) (no_tol o) -> (2 <= no_maxIt o)%nat -> mul (n_U s) <> f ->
  exists s', newtonSolve p o s = Done Success s' /\ mul (n_U s') = f /\ (n_it s' <= 1)%nat.
Proof.
  rewrite <- effTolF_spec, <- effTolU_spec. intros Hnl LM Inj MI HR HJ HF HS Hr TF TU Hm Hne. unfold newtonSolve, solveNonlinear_. rewrite Hnl.
  set (du := if n_head s then n_DU s else v0).
  assert (E1 : exists s1, start_ p s = Done tt s1 /\ n_U s1 = n_U s /\ n_DU s1 = du /\ n_R s1 = f -v mul (n_U s +v du) /\ n_L s1 = n_L s /\ 0 < n_ini s1).
  { unfold start_, computeResidual, du. destruct (n_head s); cbv zeta; cbn.
    - rewrite HR. cbn. rewrite HR. cbn. eexists. split; [reflexivity|]. cbn. repeat split. apply orOne_pos, norm_pos.
    - rewrite HR. cbn. eexists. split; [reflexivity|]. cbn. replace (n_U s +v v0) with (n_U s) by vring. repeat split. apply orOne_pos, norm_pos. }
  destruct E1 as (s1 & -> & U1 & D1 & R1 & L1 & I1). cbn [rbind].
  destruct (no_maxIt o) as [|[|n]]; [lia|lia|]. clear Hm.
  assert (IT : forall t i, n_U t = n_U s -> n_L t = n_L s -> n_R t = f -v mul (n_U s +v n_DU t) -> 0 < n_ini t ->
    exists t', newtonIteration p o (setIt i t) = Done tt t' /\ n_U t' = n_U s /\ n_L t' = n_L s /\ n_R t' = v0 /\ mul (n_U s +v n_DU t') = f /\
      n_DU t' = n_DU t +v n_dU t' /\ n_dU t' = inv (n_R t) /\ n_rnorm t' = 0 /\ n_ini t' = n_ini t /\ n_it t' = i).
  { intros t i Ut Lt Rt It. unfold newtonIteration, computeJacobian, factorize, solveSystem, computeResidual. cbn.
    rewrite HJ. cbn. rewrite HF. cbn. rewrite HS. cbn. rewrite Lt, HR, Hr. cbn. eexists. split; [reflexivity|]. cbn.
    assert (M : mul (n_U s +v (n_DU t +v 1 *v inv (n_R t))) = f).
    { rewrite (lin_add _ LM), (lin_add _ LM), (lin_scale _ LM), MI, Rt, (lin_add _ LM). vring. }
    rewrite Ut, M, Lt. replace (f -v f) with (v0 : S) by vring. rewrite norm_0. repeat split. vring. }
  assert (TT : forall t : nst S Mat, n_rnorm t = 0 -> 0 < n_ini t -> norm (n_DU t) <> 0 -> n_dU t = v0 -> newtonTest o t = true).
  { intros t Q1 Q2 Q3 Q4. unfold newtonTest. rewrite Q1, Q4, norm_0, Hr, Rmult_0_r. pose proof (norm_pos (n_DU t)).
    apply andb_true_iff. split; apply ratioLt_pos; nra. }
  cbn [newtonLoop]. destruct (IT s1 O U1 L1 ltac:(rewrite R1, D1; reflexivity) I1) as (s2 & -> & U2 & L2 & R2 & M2 & D2 & d2 & N2 & I2 & T2). cbn [rbind].
  destruct (newtonTest o s2).
  - cbn [guarded]. eexists. split; [reflexivity|]. cbn. rewrite U2. split; [exact M2|rewrite T2; lia].
  - rewrite <- I2 in I1. destruct (IT s2 1%nat U2 L2) as (s3 & -> & U3 & L3 & R3 & M3 & D3 & d3 & N3 & I3 & T3).
    + rewrite R2, M2. vring.
    + exact I1.
    + cbn [rbind]. assert (Z : n_dU s3 = v0) by (rewrite d3, R2; apply Inj; apply MI).
      rewrite (TT s3).
      * cbn [guarded]. eexists. split; [reflexivity|]. cbn. rewrite U3. split; [exact M3|rewrite T3; lia].
      * exact N3.
      * rewrite I3. exact I1.
      * rewrite norm_zero. intros E. apply Hne. rewrite <- M3, E. f_equal. vring.
      * exact Z.
Qed.
Print Assumptions C40_linear_partial.
(** two springs of stiffness 2 and 4 (also the problem of C41: the load is l (6, 8)) *)
Notation R2v := (VS_prod VS_R VS_R).
Definition exLin : nprob R2v unit := @mkNProb R2v unit tt (6, 8)
  (fun l u => Yes ((6 * l - 2 * fst u, 8 * l - 4 * snd u) : R2v)) (fun _ _ => Yes tt) (fun _ => true)
  (fun _ f => Some ((fst f / 2, snd f / 4) : R2v)) true.
Example C40_example : exists s, newtonSolve exLin (mkNOpts (1/1000) (-1) (-1) 2 1) (setUpdate ((5, 7) : R2v) (setLoad 1 newtonNew)) = Done Success s /\
  n_U s = (3, 2).
Proof.
  destruct (C40_linear_partial exLin (mkNOpts (1/1000) (-1) (-1) 2 1) tt (fun x : R2v => (2 * fst x, 4 * snd x) : R2v)
    (fun f : R2v => (fst f / 2, snd f / 4) : R2v) ((6, 8) : R2v) (setUpdate ((5, 7) : R2v) (setLoad 1 newtonNew))) as (s & H1 & H2 & _).
  - reflexivity.
  - split; intros; apply injective_projections; cbn; ring.
  - intros [a b] E. injection E as E1 E2. apply injective_projections; cbn; lra.
  - intros [a b]. apply injective_projections; cbn; lra.
  - intros [a b]. cbn. f_equal. apply injective_projections; cbn; lra.
  - reflexivity.
  - reflexivity.
  - reflexivity.
  - reflexivity.
  - rewrite <- effTolF_spec. unfold effTolF. cbn. destruct (Reqb (-1) (-1)) eqn:E; [lra|apply Reqb_false in E; lra].
  - rewrite <- effTolU_spec. unfold effTolU. cbn. destruct (Reqb (-1) (-1)) eqn:E; [lra|apply Reqb_false in E; lra].
  - cbn. lia.
  - cbn. intros E. injection E as E1 E2. lra.
  - exists s. split; [exact H1|]. destruct (n_U s) as [a b] eqn:E. injection H2 as E1 E2. clear H1 E. apply injective_projections; cbn in E1, E2 |- *; lra.
Qed.
(** from the solution itself the quotient 0/0 never passes the test *)
Theorem C40_refuted : exists s, newtonSolve (@mkNProb VS_R unit tt 6 (fun l u => Yes (6 - 2 * u)) (fun _ _ => Yes tt) (fun _ => true)
    (fun _ f => Some (f / 2)) true) (mkNOpts (1/1000) (-1) (-1) 3 1) (setDisplacement (3 : VS_R) newtonNew) = Done NotConverged s /\ n_U s = 3.
Proof. eexists. split; [sev|]. rcbv. lra. Qed.
Print Assumptions C40_refuted.

(** ** C41 *)
(** every residual is evaluated at the load factor set before, which [solve] keeps *)
Lemma loads_app {S Mat} (Q : nev S Mat -> Prop) l1 l2 : Forall Q l1 -> Forall Q l2 -> Forall Q (l1 ++ l2).
Proof. intros. apply Forall_app. auto. Qed.
Section Load.
Context {S : VS} {Mat : Type}.
Variable p : nprob S Mat.
Variable o : nopts.
Definition atLoad (l : R) (e : nev S Mat) : Prop := match e with EvRes _ l' _ => l' = l | _ => True end.
Definition keepsLoad {A} (s : nst S Mat) (x : run (nst S Mat) A) : Prop :=
  n_L (stateOf x) = n_L s /\ exists l, n_log (stateOf x) = l ++ n_log s /\ Forall (atLoad (n_L s)) l.
Lemma kl_bind {A B} s (x : run (nst S Mat) A) (f : A -> nst S Mat -> run (nst S Mat) B) :
  keepsLoad s x -> (forall a t, keepsLoad t (f a t)) -> keepsLoad s (rbind x f).
Proof.
  intros [H1 (l1 & H2 & H3)] H. destruct x as [a t|e t]; cbn in *; [|split; [exact H1|eauto]].
  destruct (H a t) as [H4 (l2 & H5 & H6)]. split; [congruence|]. exists (l2 ++ l1). rewrite H5, H2, app_assoc. split; [reflexivity|].
  apply loads_app; [rewrite <- H1; exact H6|exact H3].
Qed.
Lemma kl_same {A} s (a : A) t : n_L t = n_L s -> n_log t = n_log s -> keepsLoad s (Done a t).
Proof. intros H1 H2. split; [exact H1|]. exists []. split; [exact H2|constructor]. Qed.
Lemma kl_pre {A} s t (x : run (nst S Mat) A) : n_L t = n_L s -> n_log t = n_log s -> keepsLoad t x -> keepsLoad s x.
Proof. intros H1 H2 H. unfold keepsLoad in *. rewrite <- H1, <- H2. exact H. Qed.
Lemma kl_res u s : keepsLoad s (computeResidual p u s).
Proof.
  unfold computeResidual. cbn. split; [destruct (np_res p (n_L s) u); reflexivity|].
  exists [EvRes u (n_L s) (ansExc (np_res p (n_L s) u))]. split; [destruct (np_res p (n_L s) u); reflexivity|]. repeat constructor.
Qed.
Lemma kl_jac u du s : keepsLoad s (computeJacobian p u du s).
Proof.
  unfold computeJacobian. cbn. split; [destruct (np_jac p u du); reflexivity|].
  exists [EvJac u du (ansExc (np_jac p u du))]. split; [destruct (np_jac p u du); reflexivity|]. repeat constructor.
Qed.
Lemma kl_fact m s : keepsLoad s (factorize p m s).
Proof. unfold factorize. destruct (np_factor p m); (split; [reflexivity|]); eexists [_]; (split; [reflexivity|]); repeat constructor. Qed.
Lemma kl_solve m f s : keepsLoad s (solveSystem p m f s).
Proof. unfold solveSystem. destruct (np_solve p m f); (split; [reflexivity|]); eexists [_]; (split; [reflexivity|]); repeat constructor. Qed.
Lemma kl_start s : keepsLoad s (start_ p s).
Proof.
  unfold start_. destruct (n_head s); cbv zeta.
  - apply kl_bind; [apply kl_res|]. intros r t. apply (kl_pre _ (setRnorm (orOne (norm r)) (setR r t))); [reflexivity|reflexivity|].
    apply kl_bind; [apply kl_res|]. intros. apply kl_same; reflexivity.
  - apply (kl_pre _ (setDU v0 s)); [reflexivity|reflexivity|]. apply kl_bind; [apply kl_res|]. intros. apply kl_same; reflexivity.
Qed.
Lemma kl_iter s : keepsLoad s (newtonIteration p o s).
Proof.
  unfold newtonIteration. apply kl_bind; [apply kl_jac|]. intros m t. apply kl_bind; [apply kl_fact|]. intros _ t1.
  apply kl_bind; [apply kl_solve|]. intros x t2. cbv zeta.
  apply (kl_pre _ (setDU (n_DU t2 +v no_relax o *v x) (setdU x t2))); [reflexivity|reflexivity|].
  apply kl_bind; [apply kl_res|]. intros. apply kl_same; reflexivity.
Qed.
Lemma kl_loop : forall n i s, keepsLoad s (newtonLoop p o n i s).
Proof.
  induction n as [|n IH]; intros i s; cbn [newtonLoop]; [apply kl_same; reflexivity|].
  apply kl_bind; [apply (kl_pre _ (setIt i s)); [reflexivity|reflexivity|apply kl_iter]|]. intros _ t.
  destruct (newtonTest o t); [apply kl_same; reflexivity|]. destruct n; [|apply IH].
  split; [reflexivity|]. exists []. split; [reflexivity|constructor].
Qed.
End Load.
(** Missing: the default is zero, not one. *)
Theorem C41_load_partial {S : VS} {Mat} (p : nprob S Mat) o s s' q :
  newtonSolve p o s = Done q s' ->
  n_L s' = n_L s /\ exists l, n_log s' = l ++ n_log s /\ forall u l' e, In (EvRes u l' e) l -> l' = n_L s.
Proof.
  intros H. assert (K : keepsLoad s (if np_nl p then solveNonlinear_ p o s else solveLinear_ p s)).
  { destruct (np_nl p).
    - unfold solveNonlinear_. apply kl_bind; [apply kl_start|]. intros. apply kl_loop.
    - unfold solveLinear_. apply kl_bind; [apply kl_fact|]. intros. apply kl_bind; [apply kl_solve|]. intros. apply kl_same; reflexivity. }
  unfold newtonSolve in H. destruct (if np_nl p then _ else _) as [[] t|e t]; cbn [guarded] in H.
  - apply (f_equal stateOf) in H. cbn [stateOf] in H. subst s'. destruct K as [K1 (l & K2 & K3)]. split; [exact K1|]. exists l. split; [exact K2|].
    intros u l' e Hi. rewrite Forall_forall in K3. exact (K3 _ Hi).
  - destruct (catchStatus e) as [q'|]; [|discriminate]. apply (f_equal stateOf) in H. cbn [stateOf] in H. subst s'.
    destruct K as [K1 (l & K2 & K3)]. split; [exact K1|]. exists l. split; [exact K2|].
    intros u l' e' Hi. rewrite Forall_forall in K3. exact (K3 _ Hi).
Qed.
Print Assumptions C41_load_partial.
(** the load factor of a new solver is zero, also for dynamic relaxation; only the optimisation
    solver keeps the one of its constructor. [exLin] from (3,2), its solution at load 1, goes back
    to zero. *)
Theorem C41_refuted : (forall (S : VS) Mat, n_L (newtonNew : nst S Mat) = 0) /\ (forall S : VS, g_L (drNew : gst S) = 0) /\ (forall S : VS, o_L (optNew : ost S) = 1) /\
  exists s, newtonSolve exLin (mkNOpts (1/1000) (-1) (-1) 5 1) (setDisplacement ((3, 2) : R2v) newtonNew) = Done Success s /\ n_U s = (0, 0).
Proof.
  do 3 (split; [reflexivity|]).
  destruct (C40_linear_partial exLin (mkNOpts (1/1000) (-1) (-1) 5 1) tt (fun x : R2v => (2 * fst x, 4 * snd x) : R2v)
    (fun f : R2v => (fst f / 2, snd f / 4) : R2v) ((0, 0) : R2v) (setDisplacement ((3, 2) : R2v) newtonNew)) as (s & H1 & H2 & _).
  - reflexivity.
  - split; intros; apply injective_projections; cbn; ring.
  - intros [a b] E. injection E as E1 E2. apply injective_projections; cbn; lra.
  - intros [a b]. apply injective_projections; cbn; lra.
  - intros [a b]. cbn. f_equal. apply injective_projections; cbn; lra.
  - reflexivity.
  - reflexivity.
  - reflexivity.
  - reflexivity.
  - rewrite <- effTolF_spec. unfold effTolF. cbn. destruct (Reqb (-1) (-1)) eqn:E; [lra|apply Reqb_false in E; lra].
  - rewrite <- effTolU_spec. unfold effTolU. cbn. destruct (Reqb (-1) (-1)) eqn:E; [lra|apply Reqb_false in E; lra].
  - cbn. lia.
  - cbn. intros E. injection E as E1 E2. lra.
  - exists s. split; [exact H1|]. destruct (n_U s) as [a b] eqn:E. injection H2 as E1 E2. clear H1 E. apply injective_projections; cbn in E1, E2 |- *; lra.
Qed.
Print Assumptions C41_refuted.
