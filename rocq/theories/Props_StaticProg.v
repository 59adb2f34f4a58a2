(** Properties of the static programs: C121. *)
From Verif Require Import VS Status RunTac Static StaticRun StaticProg Props_Static Props_Static2 Props_Static3.
Local Open Scope R_scope.
(** ** C121 *)
Section C121.
Context {S : VS} {Mat : Type}.
Variable p : nprob S Mat.
Variable o : nopts.
Variable g : gprob S.
Variable go : gopts.
Lemma onN_solve (f : iface S (nst S Mat)) t q t' : i_solve (onN f) t = Done q t' -> exists x x', t = inl x /\ t' = inl x' /\ i_solve f x = Done q x'.
Proof.
  destruct t as [x|x]; cbn; [|discriminate]. destruct (i_solve f x) as [q1 x1|e x1] eqn:E; intros H; [|discriminate].
  injection H as <- <-. exists x, x1. auto.
Qed.
(** what the linear solver leaves: on Success its solution solves the linear system, and its update() is zero *)
Lemma lin_done s q s' : newtonSolve (linOf p) o s = Done q s' ->
  n_DU s' = n_DU s /\ (q = Success -> np_solve p (np_lin p) (np_force p) = Some (n_U s')).
Proof.
  unfold newtonSolve. cbn [np_nl linOf]. unfold guarded, solveLinear_, factorize, solveSystem. cbn [linOf np_lin np_force np_factor np_solve].
  destruct (np_factor p (np_lin p)); cbn; [destruct (np_solve p (np_lin p) (np_force p)) as [x|] eqn:E; cbn|]; intros H; injection H as <- <-; cbn; auto; split; auto; intros; discriminate.
Qed.
Lemma lin_fail s q s' : newtonSolve (linOf p) o s = Done q s' -> q = Success \/ q = SolverError.
Proof.
  unfold newtonSolve. cbn [np_nl linOf]. unfold guarded, solveLinear_, factorize, solveSystem. cbn [linOf np_lin np_force np_factor np_solve].
  destruct (np_factor p (np_lin p)); cbn; [destruct (np_solve p (np_lin p) (np_force p)) as [x|] eqn:E; cbn|]; intros H; injection H as <- <-; auto.
Qed.
(** With NR, if solve() returns Success: the vector written is in equilibrium to the tolerance,
    relative to the residual at zero. *)
Theorem C121_newton_partial dr c u l c' : np_nl p = true -> (1 <= no_maxIt o)%nat -> progMain p o g go dr true c = Done u (l, c') -> c_stat c' = Success ->
  exists r r0, np_res p 0 v0 = Yes r0 /\ np_res p 0 u = Yes r /\ norm r < tolOr (no_tolF o) (no_tol o) * (if Reqb (norm r0) 0 then 1 else norm r0).
Proof.
  intros Hn Hm. unfold progMain. destruct (compSolve _ c) as [q [l1 c1]|e x] eqn:E; [|discriminate]. intros H Hs. injection H as <- <- <-.
  destruct (C45_composite _ _ _ _ _ E) as (k & HL & Hq & H1 & _ & _ & H2 & H3). rewrite Hs in Hq. subst q.
  destruct H3 as [(Hk & _)|(_ & N & _)]; [|congruence].
  set (m := if dr then 2%nat else 1%nat).
  assert (Hlen : length (progSolvers p o g go dr true) = Datatypes.S m) by (destruct dr; reflexivity).
  assert (Hnth : nth_error (progSolvers p o g go dr true) m = Some (onN (newtonIface p o), inl (reset newtonNew))) by (destruct dr; reflexivity).
  rewrite Hlen in Hk. destruct (H2 m Hk) as (f1 & t1 & N1 & U1 & _).
  destruct (H1 m ltac:(lia)) as (f & t0 & t & s & M1 & M2 & M3 & M4). rewrite Hnth in M1. injection M1 as <- <-.
  rewrite N1 in M2. injection M2 as -> ->. destruct M3 as (f' & t0' & M5 & M6). rewrite Hnth in M5. injection M5 as <- <-.
  destruct (onN_solve _ _ _ _ M4) as (x & x' & -> & -> & Hx). cbn [i_solve newtonIface] in Hx.
  assert (X : n_U x = v0 /\ n_L x = 0).
  { destruct m as [|i] eqn:Em; [destruct dr; discriminate|]. destruct M6 as (g1 & r1 & _ & X). injection X as ->. cbn. auto. }
  destruct X as (X1 & X2). destruct (C38_newton_success_partial p o x x' Hn Hm Hx) as (r & r0 & R0 & R1 & HF & _).
  rewrite X1, X2 in R0. rewrite X2 in R1. cbn [i_solution onN newtonIface] in U1. exists r, r0. rewrite U1. auto.
Qed.
(** Without DR: the Newton solver does not start at the solution of the linear solver but at zero, with the
    same states for every linear system; and if it fails, the linear solution is what is written. *)
Theorem C121_linear c u l c' : progMain p o g go false true c = Done u (l, c') ->
  (c_stat c' = SolverError /\ u = c_U c) \/
  exists t s t' q, nth_error l 0 = Some (onN (newtonIface (linOf p) o), inl t) /\ np_solve p (np_lin p) (np_force p) = Some (n_U t) /\
    nth_error l 1 = Some (onN (newtonIface p o), inl t') /\ newtonSolve p o s = Done q t' /\ s = setUpdate v0 (reset newtonNew) /\ n_U s +v n_DU s = v0 /\
    c_stat c' = q /\ u = if status_eqb q Success then n_U t' else n_U t.
Proof.
  unfold progMain, progSolvers. cbn [app]. unfold compSolve. cbn [compLoop].
  cbn [onN i_solve i_setUpdate i_update i_solution i_iter]. change (i_solve (newtonIface (linOf p) o)) with (newtonSolve (linOf p) o).
  assert (LT : forall e x, newtonSolve (linOf p) o (reset newtonNew) <> Threw e x).
  { intros e x. unfold newtonSolve. cbn [np_nl linOf]. unfold guarded, solveLinear_, factorize, solveSystem. cbn [linOf np_lin np_force np_factor np_solve].
    destruct (np_factor p (np_lin p)); cbn; [destruct (np_solve p (np_lin p) (np_force p)) as [y|] eqn:E; cbn|]; discriminate. }
  destruct (newtonSolve (linOf p) o (reset newtonNew)) as [q t|e t] eqn:E; [|destruct (LT e t eq_refl)]. clear LT.
  destruct (lin_done _ _ _ E) as (D1 & D2). change (n_DU (reset newtonNew)) with (v0 : S) in D1.
  destruct (status_eqb q Success) eqn:Q.
  - apply status_eqb_true in Q. subst q. specialize (D2 eq_refl). cbn [newtonIface i_setUpdate i_update]. rewrite D1.
    change (i_solve (newtonIface p o)) with (newtonSolve p o). set (s := setUpdate v0 (reset newtonNew)).
    destruct (newtonSolve p o s) as [q' t'|e t'] eqn:E'; [intros H|discriminate].
    assert (Hs : n_U s +v n_DU s = v0) by (unfold s; cbn; vring).
    right. exists t, s, t', q'. destruct q'; cbn [status_eqb] in *; injection H as <- <- <-; repeat split; auto.
  - intros H. left. destruct (lin_fail _ _ _ E) as [Z|Z]; subst q; [discriminate|]. injection H as <- <- <-. auto.
Qed.
End C121.
Print Assumptions C121_newton_partial.
Print Assumptions C121_linear.
(** K = 2, F = 6 and the residual 6 - u^2 - u (root 2) with derivative 2 u + 1; DR is not used *)
Definition exShell : nprob VS_R R := @mkNProb VS_R R 2 6 (fun l u => Yes (6 - u * u - u)) (fun u _ => Yes (2 * u + 1)) (fun m => negb (Reqb m 0)) (fun m f => Some (f / m)) true.
Definition exG : gprob VS_R := @mkGProb VS_R (fun x => x) (fun x => x) 0 (fun _ _ => No).
Definition exGo : gopts := mkGOpts 1 1 1 10 1 1 (-1).
(** Without a check of the status the unconverged case is written: one Newton iteration (from zero, to 6) is not
    enough, and the linear solution 3 with residual -6 is what is plotted. *)
Ltac pstep := lazymatch goal with |- context [newtonSolve ?p ?o ?s] =>
  let E := fresh "E" in eassert (E : newtonSolve p o s = Done _ _) by sev; rewrite E; clear E; cbn [i_update i_solution newtonIface n_DU n_U] end.
Ltac prog := unfold progMain, progSolvers; cbn [app]; unfold compSolve; cbn [compLoop onN i_solve i_setUpdate i_update i_solution i_iter newtonIface].
Theorem C121_refuted (c : cst (S := VS_R)) : exists u l c', progMain exShell (exOpt 1 (1/1000) 2) exG exGo false true c = Done u (l, c') /\
  c_stat c' = NotConverged /\ u = 3 /\ np_res exShell 0 u = Yes (-6).
Proof.
  eexists _, _, _. split. { prog. pstep. pstep. reflexivity. }
  split; [reflexivity|]. split; [rcbv; lra|]. rcbv. f_equal. lra.
Qed.
Print Assumptions C121_refuted.
(** with four iterations and a loose tolerance solve() returns Success *)
Example C121_example (c : cst (S := VS_R)) : exists u l c', progMain exShell (exOpt 4 (1/2) 2) exG exGo false true c = Done u (l, c') /\
  c_stat c' = Success /\ 2 < u < 5/2.
Proof.
  eexists _, _, _. split. { prog. pstep. pstep. reflexivity. }
  split; [reflexivity|]. rcbv. lra.
Qed.
