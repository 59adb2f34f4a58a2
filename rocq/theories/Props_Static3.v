(** Properties of the composite solver, the optimisation solver and displacement control: C45-C47. *)
From Verif Require Import VS Status RunTac Static StaticRun Props_Static Props_Static2.
Local Open Scope R_scope.

(** ** C45 *)
Section Composite.
Context {S : VS} {T : Type}.
Notation solver := (iface S T * T)%type.
(** the state in which solver j starts: the one it had, with the update of its predecessor *)
Definition startOf (l l' : list solver) (j : nat) (t : T) : Prop :=
  exists f t0, nth_error l j = Some (f, t0) /\
  match j with
  | O => t = t0
  | Datatypes.S i => exists g r, nth_error l' i = Some (g, r) /\ t = i_setUpdate f (i_update g r) t0
  end.
Definition itersOf (l : list solver) : nat := fold_right (fun x n => i_iter (fst x) (snd x) + n)%nat O l.
Lemma compLoop_spec : forall l prev c x, compLoop prev l c = x ->
  let res := match x with Done _ y | Threw _ y => y end in
  exists k, length (fst res) = length l /\
  (forall j, (j < k)%nat -> exists f t0 t, nth_error l j = Some (f, t0) /\ nth_error (fst res) j = Some (f, t) /\
     (i_solve f (match j with O => match prev with Some du => i_setUpdate f du t0 | None => t0 end
       | Datatypes.S i => match nth_error (fst res) i with Some (g, r) => i_setUpdate f (i_update g r) t0 | None => t0 end end) = Done Success t)) /\
  (forall j, (k < j)%nat -> nth_error (fst res) j = nth_error l j) /\
  (c_it (snd res) = c_it c + itersOf (firstn k (fst res)))%nat /\
  (match k with O => c_U (snd res) = c_U c /\ c_DU (snd res) = c_DU c
    | Datatypes.S i => exists f t, nth_error (fst res) i = Some (f, t) /\ c_U (snd res) = i_solution f t /\ c_DU (snd res) = i_update f t end) /\
  ((k = length l /\ x = Done tt res /\ (c_stat c = Success -> c_stat (snd res) = Success)) \/
   ((k < length l)%nat /\ exists f t0 t, nth_error l k = Some (f, t0) /\ nth_error (fst res) k = Some (f, t) /\
      let start := match k with O => match prev with Some du => i_setUpdate f du t0 | None => t0 end
       | Datatypes.S i => match nth_error (fst res) i with Some (g, r) => i_setUpdate f (i_update g r) t0 | None => t0 end end in
      ((exists q, q <> Success /\ i_solve f start = Done q t /\ x = Done tt res /\ c_stat (snd res) = q) \/
       (exists e, i_solve f start = Threw e t /\ x = Threw e res)))).
Proof.
  induction l as [|[f t] l IH]; intros prev c x <-; cbv zeta.
  - exists O. cbn. repeat split; try lia. left. auto.
  - cbn [compLoop]. set (t1 := match prev with Some du => i_setUpdate f du t | None => t end).
    destruct (i_solve f t1) as [q t2|e t2] eqn:E.
    + assert (NS : q <> Success -> exists k, k = O /\ match q with Success => False | _ => True end).
      { intros Hq. exists O. split; [reflexivity|]. destruct q; auto. }
      destruct (status_eqb q Success) eqn:Eq.
      * apply status_eqb_true in Eq. subst q. clear NS.
        set (c1 := mkC (i_solution f t2) (i_update f t2) (c_it c + i_iter f t2) Success).
        destruct (IH (Some (i_update f t2)) c1 _ eq_refl) as (k & H1 & H2 & H3 & H4 & H5 & H6).
        set (X := compLoop (Some (i_update f t2)) l c1) in *. cbv zeta in *.
        set (rs := match X with Done _ y | Threw _ y => y end) in *.
        assert (HX : (match X with Done _ (l, c) => Done tt ((f, t2) :: l, c) | Threw e (l, c) => Threw e ((f, t2) :: l, c) end) =
          match X with Done _ _ => Done tt ((f, t2) :: fst rs, snd rs) | Threw e _ => Threw e ((f, t2) :: fst rs, snd rs) end).
        { unfold rs. destruct X as [[] [l0 c0]|e [l0 c0]]; reflexivity. }
        rewrite HX.
        assert (HR : match (match X with Done _ _ => Done tt ((f, t2) :: fst rs, snd rs) | Threw e _ => Threw e ((f, t2) :: fst rs, snd rs) end : run (list solver * cst (S := S)) unit)
          with Done _ y | Threw _ y => y end = ((f, t2) :: fst rs, snd rs)) by (destruct X; reflexivity).
        rewrite HR. cbn [fst snd]. exists (Datatypes.S k). split; [cbn; rewrite H1; reflexivity|]. split.
        { intros [|j] Hj.
          - exists f, t, t2. cbn. repeat split. exact E.
          - destruct (H2 j) as (g & t0 & t3 & Q1 & Q2 & Q3); [lia|]. exists g, t0, t3. cbn [nth_error]. split; [exact Q1|]. split; [exact Q2|].
            destruct j as [|j]; cbn [nth_error]; exact Q3. }
        split; [intros [|j] Hj; [lia|]; cbn [nth_error]; apply H3; lia|].
        split; [rewrite H4; cbn; unfold itersOf; lia|].
        split; [destruct k as [|k]; [exists f, t2; cbn; tauto|exact H5]|].
        destruct H6 as [(H6 & H7 & H8)|(H6 & g & t0 & t3 & Q1 & Q2 & Q3)].
        { left. split; [cbn; rewrite H6; reflexivity|]. rewrite H7. split; [reflexivity|]. intros _. apply H8. reflexivity. }
        { right. split; [cbn; lia|]. exists g, t0, t3. cbn [nth_error]. split; [exact Q1|]. split; [exact Q2|].
          destruct Q3 as [(q & Q3 & Q4 & Q5 & Q6)|(e & Q3 & Q4)].
          - left. exists q. split; [exact Q3|]. split; [destruct k; exact Q4|]. rewrite Q5. split; [reflexivity|exact Q6].
          - right. exists e. split; [destruct k; exact Q3|]. rewrite Q4. reflexivity. }
      * assert (Hq : q <> Success) by (intros ->; discriminate).
        assert (HX : (match q with Success => match compLoop (Some (i_update f t2)) l (mkC (i_solution f t2) (i_update f t2) (c_it c + i_iter f t2) Success) with
             Done _ (l, c) => Done tt ((f, t2) :: l, c) | Threw e (l, c) => Threw e ((f, t2) :: l, c) end | _ => Done tt ((f, t2) :: l, mkC (c_U c) (c_DU c) (c_it c) q) end)
             = Done tt ((f, t2) :: l, mkC (c_U c) (c_DU c) (c_it c) q)) by (destruct q; [contradiction| | | | |]; reflexivity).
        rewrite HX. clear HX. cbn [fst snd]. exists O. split; [reflexivity|]. split; [lia|]. split; [intros [|j] Hj; [lia|reflexivity]|].
        cbn. split; [lia|]. split; [auto|]. right. split; [lia|]. exists f, t, t2. repeat split. left. exists q. repeat split; assumption.
    + cbn [fst snd]. exists O. split; [reflexivity|]. split; [lia|]. split; [intros [|j] Hj; [lia|reflexivity]|].
      cbn. split; [lia|]. split; [auto|]. right. split; [lia|]. exists f, t, t2. repeat split. right. exists e. split; [exact E|reflexivity].
Qed.
(** A run of the composite solver that returns: there is a number k of solvers that succeeded in
    order, each started from its own state with the update of its predecessor; if k is not their
    number, solver k failed with the returned status and the later ones were not touched. The
    iterations are summed over the successful solvers, and solution() and update() are those of the
    last successful one. *)
Theorem C45_composite (l l' : list solver) c c' q :
  compSolve l c = Done q (l', c') ->
  exists k, length l' = length l /\ c_stat c' = q /\
  (forall j, (j < k)%nat -> exists f t0 t s, nth_error l j = Some (f, t0) /\ nth_error l' j = Some (f, t) /\ startOf l l' j s /\ i_solve f s = Done Success t) /\
  (forall j, (k < j)%nat -> nth_error l' j = nth_error l j) /\
  c_it c' = itersOf (firstn k l') /\
  (forall i, k = Datatypes.S i -> exists f t, nth_error l' i = Some (f, t) /\ c_U c' = i_solution f t /\ c_DU c' = i_update f t) /\
  ((k = length l /\ q = Success) \/
   ((k < length l)%nat /\ q <> Success /\ (k = O -> c_U c' = c_U c) /\
      exists f t0 t s, nth_error l k = Some (f, t0) /\ nth_error l' k = Some (f, t) /\ startOf l l' k s /\ i_solve f s = Done q t)).
Proof.
  intros H. unfold compSolve in H. destruct (compLoop_spec l None (mkC (c_U c) (c_DU c) 0 Success) _ eq_refl) as (k & H1 & H2 & H3 & H4 & H5 & H6).
  destruct (compLoop None l (mkC (c_U c) (c_DU c) 0 Success)) as [[] [l1 c1]|]; [|discriminate]. injection H as <- <- <-. cbn [fst snd] in *.
  assert (ST : forall j f t0 t, nth_error l j = Some (f, t0) -> (j <= k)%nat -> i_solve f (match j with O => t0
       | Datatypes.S i => match nth_error l1 i with Some (g, r) => i_setUpdate f (i_update g r) t0 | None => t0 end end) = t -> exists s, startOf l l1 j s /\ i_solve f s = t).
  { intros j f t0 t N Hj E. destruct j as [|j].
    - exists t0. split; [exists f, t0; auto|exact E].
    - destruct (H2 j) as (g & t1 & r & _ & N2 & _); [lia|]. rewrite N2 in E. eexists. split; [|exact E]. exists f, t0. split; [exact N|]. exists g, r. auto. }
  exists k. split; [exact H1|]. split; [reflexivity|]. split.
  { intros j Hj. destruct (H2 j Hj) as (f & t0 & t & N1 & N2 & E). destruct (ST j f t0 _ N1 ltac:(lia) E) as (s & S1 & S2). exists f, t0, t, s. auto. }
  split; [exact H3|]. split; [cbn in H4; exact H4|]. split; [intros i ->; exact H5|].
  destruct H6 as [(-> & _ & H6)|(H6 & f & t0 & t & N1 & N2 & Q)].
  - left. split; [reflexivity|]. apply H6. reflexivity.
  - right. split; [exact H6|]. cbv zeta in Q. destruct Q as [(q & Q1 & Q2 & _ & Q3)|(e & _ & Q)]; [|discriminate].
    split; [rewrite Q3; exact Q1|]. split; [intros ->; apply H5|].
    destruct (ST k f t0 _ N1 ltac:(lia) Q2) as (s & S1 & S2). exists f, t0, t, s. rewrite Q3. auto.
Qed.
(** An exception of a solver leaves [solve]; the solvers after it are not run. *)
Theorem C45_exception (l l' : list solver) c c' e :
  compSolve l c = Threw e (l', c') ->
  exists k f t0 t s, nth_error l k = Some (f, t0) /\ startOf l l' k s /\ i_solve f s = Threw e t /\ forall j, (k < j)%nat -> nth_error l' j = nth_error l j.
Proof.
  intros H. unfold compSolve in H. destruct (compLoop_spec l None (mkC (c_U c) (c_DU c) 0 Success) _ eq_refl) as (k & H1 & H2 & H3 & H4 & H5 & H6).
  destruct (compLoop None l (mkC (c_U c) (c_DU c) 0 Success)) as [[] [l1 c1]|e1 [l1 c1]]; [discriminate|]. injection H as -> <- <-. cbn [fst snd] in *.
  destruct H6 as [(_ & H6 & _)|(H6 & f & t0 & t & N1 & N2 & Q)]; [discriminate|]. cbv zeta in Q. destruct Q as [(q & _ & _ & Q & _)|(e1 & Q1 & Q2)]; [discriminate|].
  injection Q2 as <-. destruct k as [|k].
  - exists O, f, t0, t, t0. split; [exact N1|]. split; [exists f, t0; auto|]. split; [exact Q1|exact H3].
  - destruct (H2 k) as (g & t1 & r & _ & M2 & _); [lia|]. rewrite M2 in Q1. exists (Datatypes.S k), f, t0, t. eexists. split; [exact N1|].
    split; [|split; [exact Q1|exact H3]]. exists f, t0. split; [exact N1|]. exists g, r. auto.
Qed.
End Composite.
Print Assumptions C45_composite.
Print Assumptions C45_exception.
(** Newton solvers with one and the same displacement: each solver starts (U + DeltaU with a
    head start) at the solution of its predecessor, and in the end solution() is that displacement
    plus update(). *)
Theorem C45_newton_chain {S : VS} {Mat} (l l' : list (iface S (nst S Mat) * nst S Mat)) c c' u :
  (forall f t, In (f, t) l -> n_U t = u /\ exists p o, f = newtonIface p o /\ np_nl p = true /\ (1 <= no_maxIt o)%nat) ->
  compSolve l c = Done Success (l', c') ->
  (forall i f t0, nth_error l (Datatypes.S i) = Some (f, t0) ->
    exists g r s t, nth_error l' i = Some (g, r) /\ n_U s +v n_DU s = i_solution g r /\ n_head s = true /\
      i_solve f s = Done Success t /\ nth_error l' (Datatypes.S i) = Some (f, t)) /\
  (l <> [] -> c_U c' = u +v c_DU c').
Proof.
  intros Hl H. destruct (C45_composite l l' c c' Success H) as (k & HL & _ & H1 & _ & _ & H2 & [(-> & _)|(_ & N & _)]); [|congruence].
  assert (SOL : forall j g r, nth_error l' j = Some (g, r) -> i_solution g r = u +v i_update g r).
  { intros j g r N.
    assert (Lj : (j < length l)%nat) by (rewrite <- HL; apply nth_error_Some; rewrite N; discriminate).
    destruct (H1 j Lj) as (f & t0 & t & s & N1 & N2 & S1 & S2). rewrite N in N2. injection N2 as -> ->.
    destruct (Hl f t0 (nth_error_In _ _ N1)) as (U1 & p & o & -> & Hn & Hm). cbn in S2 |- *.
    destruct (C38_newton_success_partial p o s t Hn Hm S2) as (_ & _ & _ & _ & _ & _ & E & _). rewrite E. f_equal.
    destruct S1 as (f' & t0' & N4 & S1). rewrite N1 in N4. injection N4 as <- <-. destruct j as [|j]; [subst s; exact U1|].
    destruct S1 as (g' & r1 & _ & ->). exact U1. }
  split.
  - intros i f t0 N. assert (Li : (Datatypes.S i < length l)%nat) by (apply nth_error_Some; rewrite N; discriminate).
    destruct (H1 _ Li) as (f' & t0' & t & s & N1 & N2 & S1 & S2). rewrite N in N1. injection N1 as <- <-.
    destruct S1 as (f' & t0' & N4 & g & r & N5 & Hs). rewrite N in N4. injection N4 as <- <-.
    exists g, r, s, t. split; [exact N5|]. destruct (Hl f t0 (nth_error_In _ _ N)) as (U0 & p & o & -> & _).
    rewrite (SOL i g r N5). subst s. cbn. rewrite U0. auto.
  - intros Hne. destruct l as [|x l0]; [contradiction|]. destruct (H2 _ eq_refl) as (f & t & N & -> & ->). exact (SOL _ _ _ N).
Qed.
Print Assumptions C45_newton_chain.
(** three Newton solvers: the second starts at 5/4, where the first one stops, and the third one
    does not converge (its tolerance cannot be met in one iteration) *)
Definition exN (tolF tolU : R) : iface VS_R (nst VS_R R) * nst VS_R R :=
  (newtonIface exSquare (exOpt 1 tolF tolU), setSolution (2 : VS_R) 1 newtonNew).
Ltac nstep := lazymatch goal with |- context [newtonSolve ?p ?o ?s] =>
  let E := fresh "E" in eassert (E : newtonSolve p o s = Done _ _) by sev; rewrite E; clear E; cbn [i_update newtonIface n_DU] end.
Example C45_example : exists l' c' l3 c3,
  compSolve [exN (1/2) 2; exN (1/10) 2] (mkC v0 v0 7 NotStarted) = Done Success (l', c') /\ c_U c' = 41/40 /\ c_DU c' = -39/40 /\
  compSolve [exN (1/2) 2; exN (1/100) 2; exN (1/2) 2] (mkC v0 v0 7 NotStarted) = Done NotConverged (l3, c3) /\ c_U c3 = 5/4 /\
  nth_error l3 2 = Some (exN (1/2) 2).
Proof.
  eexists _, _, _, _.
  split. { unfold compSolve, exN. cbn [compLoop i_solve newtonIface]. nstep. nstep. reflexivity. }
  split; [rcbv; lra|]. split; [rcbv; lra|].
  split. { unfold compSolve, exN. cbn [compLoop i_solve newtonIface]. nstep. nstep. reflexivity. }
  split; [rcbv; lra|]. reflexivity.
Qed.

(** ** C46 *)
(** What holds: Success is returned, solution() is the design of the optimiser started at
    displacement + update at the current load, and update() is the difference to the displacement. *)
Theorem C46_opt_partial {S : VS} (optim : R -> S -> S * nat) s q s' :
  optSolve optim s = (q, s') ->
  q = Success /\ o_U s' = fst (optim (o_L s) (o_U s +v o_DU s)) /\ o_U s' = o_U s +v o_DU s' /\
  o_it s' = snd (optim (o_L s) (o_U s +v o_DU s)) /\
  forall q2 s2, optSolve optim (optReset s') = (q2, s2) -> o_U s2 = fst (optim 0 v0).
Proof.
  intros H. unfold optSolve in H. injection H as <- <-. cbn. split; [reflexivity|]. split; [vring|]. split; [reflexivity|]. split; [reflexivity|].
  intros q2 s2 H. injection H as <- <-. cbn. replace ((v0 : S) +v v0) with (v0 : S) by vring. vring.
Qed.
Print Assumptions C46_opt_partial.
Example C46_example : optSolve (S := VS_R) (fun l u => ((u + l) / 2, 3%nat)) (@mkO VS_R 2 1 5 0 NotStarted) =
  (Success, @mkO VS_R (2 + ((2 + 1 + 5) / 2 + -1 * 2)) ((2 + 1 + 5) / 2 + -1 * 2) 5 3 NotStarted).
Proof. reflexivity. Qed.
(** What does not hold: status() keeps NotStarted after any number of solves that return Success,
    so converged() is never true; and after setDisplacement the next solve does not start at that
    displacement but at displacement + the update of the last solve. *)
Theorem C46_refuted {S : VS} (optim : R -> S -> S * nat) :
  (forall n s, o_stat (Nat.iter n (fun s => snd (optSolve optim s)) s) = o_stat s) /\
  exists (opt : R -> VS_R -> VS_R * nat) s s', optSolve opt optNew = (Success, s) /\
    optSolve opt (optSetDisplacement (0 : VS_R) s) = (Success, s') /\ o_stat s' = NotStarted /\ o_U s' <> fst (opt (o_L s) 0).
Proof.
  split.
  - induction n as [|n IH]; intros s; [reflexivity|]. rewrite <- (IH s). reflexivity.
  - exists (fun _ x => (x + 1, 1%nat)). eexists _, _. split; [reflexivity|]. split; [reflexivity|]. split; [reflexivity|]. cbn. lra.
Qed.
Print Assumptions C46_refuted.

(** ** C47 *)
Section Control.
Context {S : VS} {T : Type}.
Variable f : iface S T.
(** a history of steps: the increment and what the step returned ([None]: it threw) *)
Inductive ctlRun : list (R * option status) -> @dst S T -> @dst S T -> Prop :=
| CrNil s : ctlRun [] s s
| CrStep l s s1 s2 dl q : ctlRun l s s1 -> ctlStep f dl s1 = Done q s2 -> ctlRun (l ++ [(dl, Some q)]) s s2
| CrThrow l s s1 s2 dl e : ctlRun l s s1 -> ctlStep f dl s1 = Threw e s2 -> ctlRun (l ++ [(dl, None)]) s s2.
Definition won (x : R * option status) : R := match snd x with Some Success => fst x | _ => 0 end.
Lemma ctlStep_cases dl s :
  match ctlStep f dl s with
  | Done q s' => d_stat s' = q /\ d_first s' = false /\
     exists t, i_solve f (let t := i_setLoad f (d_L s + dl) (d_solver s) in if d_first s then t else i_setDisplacement f (d_U s) t) = Done q t /\ d_solver s' = t /\
     (q = Success -> d_L s' = d_L s + dl /\ d_U s' = d_U s +v i_update f t) /\ (q <> Success -> d_L s' = d_L s /\ d_U s' = d_U s)
  | Threw _ s' => d_first s' = false /\ d_L s' = d_L s /\ d_U s' = d_U s
  end.
Proof.
  unfold ctlStep. cbv zeta. set (t1 := if d_first s then _ else _). destruct (i_solve f t1) as [q t|e t]; [|cbn; auto].
  destruct (status_eqb q Success) eqn:E; cbn; (split; [reflexivity|]; split; [reflexivity|]; exists t; split; [reflexivity|]; split; [reflexivity|]).
  - split; [auto|]. apply status_eqb_true in E. congruence.
  - split; [intros ->; discriminate|auto].
Qed.
(** A step that does not return Success changes neither solutionU() nor solutionL(). *)
Theorem C47_failed_step dl s s' :
  (exists q, q <> Success /\ ctlStep f dl s = Done q s') \/ (exists e, ctlStep f dl s = Threw e s') -> d_U s' = d_U s /\ d_L s' = d_L s.
Proof. intros [(q & N & H)|(e & H)]; pose proof (ctlStep_cases dl s) as C; rewrite H in C; [destruct C as (_ & _ & t & _ & _ & _ & C); destruct (C N)|destruct C as (_ & ? & ?)]; auto. Qed.
(** solutionL() is the sum of the increments of the successful steps. *)
Theorem C47_load_sum l s s' : ctlRun l s s' -> d_L s' = d_L s + fold_right Rplus 0 (map won l).
Proof.
  assert (F : forall l x, fold_right Rplus 0 (l ++ [x]) = fold_right Rplus 0 l + x) by (induction l0; intros; cbn; [|rewrite IHl0]; lra).
  induction 1 as [|l s s1 s2 dl q _ IH H|l s s1 s2 dl e _ IH H]; [cbn; lra| |]; rewrite map_app; cbn [map]; rewrite F; pose proof (ctlStep_cases dl s1) as C; rewrite H in C.
  - destruct C as (_ & _ & t & _ & _ & C1 & C2). destruct (status_eqb q Success) eqn:E.
    + apply status_eqb_true in E. subst q. destruct (C1 eq_refl) as (-> & _). unfold won at 2. cbn. lra.
    + assert (N : q <> Success) by (intros ->; discriminate). destruct (C2 N) as (-> & _). unfold won at 2. cbn. destruct q; [contradiction|lra..].
  - destruct C as (_ & -> & _). unfold won at 2. cbn. lra.
Qed.
End Control.
Print Assumptions C47_failed_step.
Print Assumptions C47_load_sum.
(** With a nonlinear Newton solver that starts at zero: after every successful step of a history,
    solutionU() is the solution of the solver and in equilibrium (to the tolerance) at solutionL(). *)
Theorem C47_newton {S : VS} {Mat} (p : nprob S Mat) o t l s dl s' :
  np_nl p = true -> (1 <= no_maxIt o)%nat -> n_U t = v0 ->
  ctlRun (newtonIface p o) l (ctlNew t) s -> ctlStep (newtonIface p o) dl s = Done Success s' ->
  d_U s' = n_U (d_solver s') /\ n_L (d_solver s') = d_L s' /\
  exists r r0, np_res p (d_L s') (d_U s) = Yes r0 /\ np_res p (d_L s') (d_U s') = Yes r /\
    norm r < tolOr (no_tolF o) (no_tol o) * (if Reqb (norm r0) 0 then 1 else norm r0).
Proof.
  intros Hn Hm Ht H E.
  assert (I : d_first s = true -> n_U (d_solver s) = d_U s).
  { clear E. remember (ctlNew t) as s0. destruct H as [|? ? ? ? ? ? _ H|? ? ? ? ? ? _ H].
    - subst. cbn. auto.
    - pose proof (ctlStep_cases (newtonIface p o) dl0 s1) as C. rewrite H in C. destruct C as (_ & -> & _). discriminate.
    - pose proof (ctlStep_cases (newtonIface p o) dl0 s1) as C. rewrite H in C. destruct C as (-> & _). discriminate. }
  pose proof (ctlStep_cases (newtonIface p o) dl s) as C. rewrite E in C. destruct C as (_ & _ & t1 & C1 & C2 & C3 & _).
  destruct (C3 eq_refl) as (L1 & U1). rewrite C2. cbv zeta in C1.
  set (t0 := if d_first s then i_setLoad (newtonIface p o) (d_L s + dl) (d_solver s) else _) in C1.
  assert (U0 : n_U t0 = d_U s /\ n_L t0 = d_L s + dl).
  { unfold t0. destruct (d_first s); cbn; [|auto]. split; [exact (I eq_refl)|reflexivity]. }
  destruct U0 as (U0 & L0). cbn [i_solve newtonIface] in C1.
  destruct (C38_newton_success_partial p o t0 t1 Hn Hm C1) as (r & r0 & R0 & R1 & HF & _ & HU & _ & HL).
  assert (EU : d_U s' = n_U t1) by (rewrite U1, HU, U0; reflexivity).
  split; [exact EU|]. split.
  - rewrite L1, <- L0. exact HL.
  - exists r, r0. rewrite L1, EU, <- L0, <- U0. auto.
Qed.
Print Assumptions C47_newton.
(** a linear spring whose assembly fails above load 10: a step of 1, one of 20 that fails, one of 2 *)
Definition exSpring : nprob VS_R R := @mkNProb VS_R R 1 1
  (fun l u => if Rltb 10 l then No else Yes (l - 2 * u)) (fun u _ => Yes 2) (fun m => negb (Reqb m 0)) (fun m f => Some (f / m)) true.
Example C47_example : exists s, ctlRun (newtonIface exSpring (exOpt 4 (1/2) 2)) [(1, Some Success); (20, Some AssemblyError); (2, Some Success)] (ctlNew newtonNew) s /\
  d_L s = 3 /\ d_U s = 3/2.
Proof.
  eexists. split.
  - change [(1, Some Success); (20, Some AssemblyError); (2, Some Success)] with ((([] ++ [(1, Some Success)]) ++ [(20, Some AssemblyError)]) ++ [(2, Some Success)]).
    eapply CrStep; [eapply CrStep; [eapply CrStep; [apply CrNil|]|]|].
    unfold ctlStep; cbv zeta; cbn [i_solve newtonIface d_first d_L d_U d_solver d_stat ctlNew]. nstep. cbn [status_eqb]. reflexivity.
    unfold ctlStep; cbv zeta; cbn [i_solve newtonIface d_first d_L d_U d_solver d_stat ctlNew]. nstep. cbn [status_eqb]. reflexivity.
    unfold ctlStep; cbv zeta; cbn [i_solve newtonIface d_first d_L d_U d_solver d_stat ctlNew]. nstep. cbn [status_eqb]. reflexivity.
  - split; rcbv; lra.
Qed.
