(** C95: the arc length a branch found at a bifurcation starts with. *)
From Verif Require Import Prelude VS Status RunTac ALMBase ALMBaseProofs ALMStep ALMRun Props_ALMStep ALMSingular Props_ALMSingular
  APALMData APALMSpec APALMDriver APALMExec APALMWorker APALMSolver Props_APALMDriver Props_APALMSerial Props_APALMSolver.
Local Open Scope R_scope.

(** the steps an initiation had to repeat with half the length *)
Definition repeated {sol} (log : list (stepCall sol)) : nat :=
  length (filter (fun c => match sc_status c with NotConverged | AssemblyError => true | _ => false end) log).

(** A solver that, while [Inv] holds, changes its length in setLength only *)
Record keepsLength {sol} (A : ALM sol) (Inv : alm_state A -> Prop) : Prop := mkKL {
  kl_setLength : forall l a, Inv a -> Inv (alm_setLength A l a);
  kl_setSolution : forall u a, Inv a -> Inv (alm_setSolution A u a);
  kl_setPrevious : forall u a, Inv a -> Inv (alm_setPrevious A u a);
  kl_step : forall a s a', Inv a -> alm_step A a = Ok (s, a') -> Inv a' /\ alm_getLength A a' = alm_getLength A a;
  kl_spot : forall u a a' b, Inv a -> alm_spot A u a = Ok (a', b) -> Inv a' /\ alm_getLength A a' = alm_getLength A a;
  kl_switch : forall a a', Inv a -> alm_switchBranch A a = Ok a' -> Inv a' /\ alm_getLength A a' = alm_getLength A a
}.

(** after an initiation the solver keeps the length of its last step *)
Theorem C95_length_after_initiation : forall (sol : Type) (A : ALM sol) Inv fuel singular a dL start prev dist ss bif a' log,
  almLaws A -> keepsLength A Inv -> Inv a ->
  initiation A fuel singular a dL start prev = Ok (dist, ss, bif, a', log) ->
  Inv a' /\ alm_getLength A a' = dL / 2 ^ repeated log.
Proof.
  intros sol A Inv fuel singular a dL start prev dist ss bif a' log L KL I H. unfold initiation in H.
  set (a0 := alm_setPrevious A prev (alm_setSolution A start (alm_setLength A dL a))) in *.
  assert (I0 : Inv a0) by (apply (kl_setPrevious _ _ KL), (kl_setSolution _ _ KL), (kl_setLength _ _ KL), I).
  assert (E0 : alm_getLength A a0 = dL) by (unfold a0; rewrite (al_length_prev _ L), (al_length_sol _ L), (al_length _ L); reflexivity).
  clearbody a0.
  assert (X : forall fuel dL a lg a' lg', initLoop A fuel dL start a lg = Ok (a', lg') -> Inv a -> alm_getLength A a = dL ->
    Inv a' /\ exists l, lg' = lg ++ l /\ alm_getLength A a' = dL / 2 ^ repeated l).
  { clear -L KL. induction fuel as [|f IH]; intros dL a lg a' lg' H I E; [discriminate|]. cbn [initLoop] in H. unfold call in H.
    destruct (alm_step A a) as [[s a1]|] eqn:Es; [|discriminate]. cbn [rbind] in H.
    destruct (kl_step _ _ KL _ _ _ I Es) as [I1 E1].
    match type of H with context [lg ++ [?x]] => set (c := x) in * end.
    assert (Ec : sc_status c = s) by reflexivity. clearbody c.
    destruct (status_eqb s Success) eqn:Ess; cbn [negb] in H.
    - apply status_eqb_true in Ess. rewrite Ess in *. cbn in H. injection H as <- <-. split; auto. exists [c]. split; auto.
      unfold repeated. cbn [filter]. rewrite Ec. cbn. rewrite E1, E. field.
    - destruct (retry s) eqn:Er.
      + apply IH in H as (I2 & l & El & El2).
        * split; auto. exists (c :: l). split; [rewrite El, <- app_assoc; reflexivity|]. rewrite El2. unfold repeated. cbn [filter].
          rewrite Ec. assert (Hs : s = NotConverged \/ s = AssemblyError) by (destruct s; cbn in *; try discriminate; auto).
          destruct Hs as [-> | ->]; cbn [length pow]; field; apply pow_nonzero; lra.
        * apply (kl_setSolution _ _ KL), (kl_setLength _ _ KL), I1.
        * rewrite (al_length_sol _ L), (al_length _ L). reflexivity.
      + apply IH in H as (I2 & l & El & El2); auto; [|congruence].
        split; auto. exists (c :: l). split; [rewrite El, <- app_assoc; reflexivity|]. rewrite El2. unfold repeated. cbn [filter].
        rewrite Ec. destruct s; try reflexivity; discriminate. }
  destruct (initLoop A fuel dL start a0 []) as [[a1 lg]|] eqn:E1; [|discriminate]. cbn [rbind] in H.
  destruct (X _ _ _ _ _ _ E1 I0 E0) as (I1 & l & El & E2). cbn in El. subst l. clear X.
  assert (Y : exists a2 b, (if singular then alm_spot A start a1 else Ok (a1, false)) = Ok (a2, b) /\ Inv a2 /\ alm_getLength A a2 = alm_getLength A a1).
  { destruct singular; [|eauto]. destruct (alm_spot A start a1) as [[a2 b]|] eqn:Esp; [|discriminate].
    destruct (kl_spot _ _ KL _ _ _ _ I1 Esp). eauto 6. }
  destruct Y as (a2 & b & Ey & I2 & E3). rewrite Ey in H. cbn [rbind] in H. destruct b.
  - destruct (alm_switchBranch A a2) as [a3|] eqn:Esw; [|discriminate]. cbn [rbind] in H. injection H as _ _ _ <- <-.
    destruct (kl_switch _ _ KL _ _ I2 Esw). split; auto. congruence.
  - injection H as _ _ _ <- <-. split; auto. congruence.
Qed.
Print Assumptions C95_length_after_initiation.

(** gsALMRiks and gsALMCrisfield do, with a constant arc length and without bisection *)
Lemma solver_keeps {S : VS} {Mat} (p : problem S Mat) o k : o_spTolB o = 0 ->
  keepsLength (solverALM p o k) (fun s => s_adaptive s = false).
Proof.
  intros HB. constructor; cbn [solverALM alm_state alm_setLength alm_setSolution alm_setPrevious alm_step alm_spot alm_switchBranch alm_getLength].
  - intros l s H. exact H.
  - intros u s H. exact H.
  - intros u s H. exact H.
  - intros s t s' H E. unfold solverStep in E. destruct (step p o k s) as [[] s1|] eqn:Es; [|discriminate]. cbn in E. injection E as _ <-.
    destruct (C26_length_factor p o k s s1 Es) as (A1 & A2 & _). split; [congruence|auto].
  - intros u s s' b H E. unfold solverSpot in E.
    pose proof (computeStability_keep p o (o_quasi o) s) as K1. destruct (computeStability p o (o_quasi o) s) as [[] s1|]; [|discriminate].
    cbn [returned rbind outSt] in *. apply keep4L in K1. destruct (stabilityChange s1); [|injection E as <- _; injection K1; intros; split; congruence].
    pose proof (test_L p o false s1) as K2. unfold isBifurcation in E. destruct (testSingularPoint p o false s1) as [tst s2|]; [|discriminate].
    cbn [returned rbind outSt] in *. rewrite K1 in K2. destruct tst; [|injection E as <- _; injection K2; intros; split; congruence].
    pose proof (C36_restores_settings_partial p o k (fst u) (snd u) false false false s2 (or_intror HB)) as K3. cbv zeta in K3.
    destruct (computeSingularPoint p o k (fst u) (snd u) false false false s2) as [[] s3|]; [|discriminate].
    cbn [returned rbind outSt] in *. injection E as <- _. injection K2. destruct K3. intros. split; congruence.
  - intros s s' H E. unfold solverSwitch in E. pose proof (switch_L o s) as K. destruct (switchBranch o s) as [[] s1|]; [|discriminate].
    cbn [returned rbind outSt] in *. injection E as <-. injection K. intros. split; congruence.
Qed.
Theorem C95_solver_length_partial {S : VS} {Mat} (p : problem S Mat) o k fuel singular (s : st S Mat) dL start prev dist ss bif s' log :
  s_adaptive s = false -> o_spTolB o = 0 ->
  initiation (solverALM p o k) fuel singular s dL start prev = Ok (dist, ss, bif, s', log) ->
  s_len s' = dL / 2 ^ repeated log.
Proof.
  intros Ha HB H. apply (C95_length_after_initiation _ _ _ _ _ _ _ _ _ _ _ _ _ _ (solver_laws p o k) (solver_keeps p o k HB) Ha H).
Qed.
Print Assumptions C95_solver_length_partial.

(** ** C95. On one process the new branch gets the length of the initiation that found it, times
    the two multipliers, if no step of that initiation had to be repeated; every repetition
    halves it. ([j]: the job of this round, computed by a solver in the state [a].) *)
Theorem C95_serial_branch_partial : forall (sol : Type) (st : settings sol) work newLen m countIt m' j
    (A : ALM sol) Inv fuel a dist ss a' log branchMult bifMult,
  almLaws A -> keepsLength A Inv -> Inv a ->
  serialJob st work newLen m countIt = Ok m' -> mn_sent m' = mn_sent m ++ [(0%nat, j)] ->
  initiation A fuel true a (j_dt j) (j_start j) (j_prev j) = Ok (dist, ss, true, a', log) ->
  work (length (mn_done m)) j = AInit dist ss true ->
  newLen (length (mn_done m)) = alm_getLength A a' * branchMult * bifMult ->
  (length (mn_data m) < length (mn_data m'))%nat ->
  exists n, nth_error (mn_data m') (length (mn_data m)) = Some n /\
    getLength n = j_dt j / 2 ^ repeated log * branchMult * bifMult /\
    (repeated log = 0%nat -> getLength n = j_dt j * branchMult * bifMult).
Proof.
  intros sol st work newLen m countIt m' j A Inv fuel a dist ss a' log bl bm L KL I H Hs Hi Hw Hn HL.
  destruct (C94_serial_new_branch sol st work newLen m countIt m' H HL) as (n & E1 & E2).
  destruct (C95_length_after_initiation sol A Inv _ _ _ _ _ _ _ _ _ _ _ L KL I Hi) as (_ & E3).
  exists n. split; auto. rewrite E2, Hn, E3. split; auto. intros ->. cbn. field.
Qed.
Print Assumptions C95_serial_branch_partial.

(** a solver that cannot step further than 3/4: its state is the length and the solution *)
Definition shortALM : ALM nat := {|
  alm_state := R * nat;
  alm_setLength l a := (l, snd a);
  alm_getLength a := fst a;
  alm_setSolution u a := (fst a, u);
  alm_setPrevious _ a := a;
  alm_solution a := snd a;
  alm_step a := if Rltb (3/4) (fst a) then Ok (NotConverged, a) else Ok (Success, (fst a, S (snd a)));
  alm_distance _ _ _ := 1/2;
  alm_spot _ a := Ok (a, true);
  alm_switchBranch a := Ok (fst a, 9%nat) |}.
Lemma shortALM_laws : almLaws shortALM.
Proof. constructor; reflexivity. Qed.
Lemma shortALM_keeps : keepsLength shortALM (fun _ => True).
Proof.
  constructor; auto; cbn.
  - intros a s a' _. destruct (Rltb (3/4) (fst a)); intros E; injection E as _ <-; auto.
  - intros u a a' b _ E. injection E as <- _. auto.
  - intros a a' _ E. injection E as <-. auto.
Qed.
(** Refuted in general: branch 0 has the length 1, both multipliers are 1, and the branch found
    at its first point starts with the length 1/2, because the step had to be repeated. *)
Theorem C95_refuted : exists a a' c ms j log parent child,
  let st := exSettings true 5 3 in
  prepared st c /\
  serialJob st (fun _ _ => AInit (1/2) [8; 9]%nat true) (fun _ => alm_getLength shortALM a' * 1 * 1) (begun c) false = Ok ms /\
  mn_sent ms = [(0%nat, j)] /\
  initiation shortALM 5 true a (j_dt j) (j_start j) (j_prev j) = Ok (1/2, [8; 9]%nat, true, a', log) /\
  mn_data ms = [parent; child] /\ sols child = [9%nat] /\ getLength parent = 1 /\ getLength child = 1/2.
Proof.
  exists (1, 7%nat), (1/2, 9%nat). do 6 eexists. cbv zeta. split.
  { split; [eexists; eexists; reflexivity|]. exists 7%nat, 1. reach. }
  split; [reach|]. split; [reflexivity|]. split; [reach|]. split; [reflexivity|]. split; [reach|]. split; [reflexivity|]. cbn. lra.
Qed.
Print Assumptions C95_refuted.
(** and with a shorter length nothing is repeated *)
Example C95_example : exists a a' c ms j log,
  let st := exSettings true 5 3 in
  serialJob st (fun _ _ => AInit (1/2) [8; 9]%nat true) (fun _ => alm_getLength shortALM a' * 2 * 3) (begun c) false = Ok ms /\
  mn_sent ms = [(0%nat, j)] /\ j_dt j = 1/2 /\ repeated log = 0%nat /\
  initiation shortALM 5 true a (j_dt j) (j_start j) (j_prev j) = Ok (1/2, [8; 9]%nat, true, a', log) /\
  length (mn_data ms) = 2%nat /\ addStarts st [] [(7%nat, 1/2)] = Ok c.
Proof.
  exists (1, 7%nat), (1/2, 9%nat). do 4 eexists. cbv zeta.
  split; [|split; [|split; [|split; [|split; [|split; [|reach]]]]]]; [reach| | | | |];
    [reflexivity|reflexivity| |reach|reflexivity]. reflexivity.
Qed.
Example C95_solver_example : exists dist ss bif s' log,
  initiation (solverALM exSpring (exOpts 5) Riks) 1 false (exSt VS_R R 1) 1 (0, 0) (0, 0) = Ok (dist, ss, bif, s', log) /\
  s_adaptive (exSt VS_R R 1) = false /\ o_spTolB (exOpts 5) = 0.
Proof.
  destruct C90_initiation_example as (dist & ss & bif & s' & log & H & _). exists dist, ss, bif, s', log.
  split; [exact H|]. split; reflexivity.
Qed.
