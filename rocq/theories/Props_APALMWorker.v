(** Properties C16 (initiation), C18-C22, C68-C71: the computations done by a worker of
    gsAPALM, serialSolve and the output. The arc-length solver is any object of type [ALM]
    whose setters obey [almLaws]. *)
From Verif Require Import Prelude Status APALMData APALMDataProofs APALMDataInv APALMSpec APALMHist APALMDataEx
  Props_APALMData APALMDriver APALMSched APALMExec APALMExecLemmas Props_APALMDriver APALMWorker APALMWorkerProofs.
Local Open Scope R_scope.

(** a step is repeated with half the length for these two statuses, and its result is
    stored otherwise *)
Definition stored {sol} (c : stepCall sol) : bool :=
  match sc_status c with NotConverged | AssemblyError => false | _ => true end.
Lemma stored_accepted {sol} (log : list (stepCall sol)) : filter stored log = acc log.
Proof. unfold acc. apply filter_ext. intros [? ? [] ? ?]; reflexivity. Qed.
(** number of stored steps that directly follow a failed one *)
Fixpoint afterFailure {sol} (failed : bool) (log : list (stepCall sol)) : nat :=
  match log with
  | [] => 0
  | c :: l => ((if failed && stored c then 1 else 0) + afterFailure (negb (stored c)) l)%nat
  end.
Lemma afterFailure_halved {sol} (log : list (stepCall sol)) b : afterFailure b log = halvedFrom b log.
Proof.
  revert b. induction log as [|c l IH]; intros b; cbn; auto. rewrite IH.
  replace (accepted c) with (stored c); auto. destruct c as [? ? [] ? ?]; reflexivity.
Qed.

(** ** An arc-length solver for the examples: solutions are numbers, a step longer than 1
    does not converge, a shorter one moves by its length. State: length, solution. *)
Definition exALM (bif : bool) : ALM R := {|
  alm_state := R * R;
  alm_setLength l a := (l, snd a);
  alm_getLength a := fst a;
  alm_setSolution s a := (fst a, s);
  alm_setPrevious s a := a;
  alm_solution a := snd a;
  alm_step a := if Rltb 1 (fst a) then Ok (NotConverged, a) else Ok (Success, (fst a, snd a + fst a));
  alm_distance a x y := Rabs (y - x);
  alm_spot s a := Ok (a, bif);
  alm_switchBranch a := Ok (fst a, - snd a)
|}.
Lemma exALM_laws bif : almLaws (exALM bif).
Proof. constructor; reflexivity. Qed.

(** ** C18: halving conserves the requested arc length *)
Theorem C18_halving_conserves_length :
  forall (sol : Type) (A : ALM sol) opposite fuel n a D start prev ref ds ss up lo a' log,
  almLaws A -> 0 < D ->
  correction_ A opposite fuel n a D start prev ref = Ok (ds, ss, up, lo, a', log) ->
  let steps := filter stored log in
  (* the lengths of the stored steps add up to D *)
  Rsum (map sc_length steps) = D /\ Forall (fun c => 0 < sc_length c) log /\
  (* each step is measured by the solver when it stands at the new solution *)
  Forall (fun c => exists x, alm_solution A x = sc_to c /\ sc_dist c = alm_distance A x (sc_from c) (sc_to c)) log /\
  (* the solutions returned are theirs; n, plus one for each halved step *)
  ss = map sc_to steps /\ length ss = (n + afterFailure false log)%nat /\ length ds = S (length ss) /\
  (* the distances are those of the stored steps, then the one to the reference *)
  map sc_from steps = start :: removelast ss /\
  ds = map sc_dist steps ++ [alm_distance A a' (last ss start) ref] /\
  up = alm_distance A a' start ref /\ lo = alm_distance A a' start (last ss start).
Proof.
  intros sol A opp fuel n a D start prev ref ds ss up lo a' log HL HD H. cbv zeta. rewrite stored_accepted, afterFailure_halved.
  destruct (correction_spec A HL opp fuel n a D start prev ref ds ss up lo a' log HD H) as (H1 & H2 & H3 & H4 & H5 & H6 & H7 & H8 & H9).
  split; auto. split; [eapply Forall_impl; [|exact H9]; cbn; tauto|]. split; [eapply Forall_impl; [|exact H9]; cbn; intros c [_ Hm]; exact Hm|].
  do 2 (split; [auto|]). split; [rewrite H4, app_length, H2, !map_length; cbn; lia|].
  split; [|auto]. rewrite H2 in *. clear -H5 H8. induction H5 as [|log c Hc IH E]; [contradiction|].
  rewrite acc_snoc in *. destruct (accepted c); [|rewrite app_nil_r in *; auto].
  rewrite !map_app. cbn [map]. rewrite removelast_last.
  destruct (acc log) as [|x l] eqn:El.
  - cbn in *. rewrite E. reflexivity.
  - rewrite IH by discriminate. rewrite E. cbn [map app]. f_equal.
    symmetry. apply (app_removelast_last start (l := sc_to x :: map sc_to l)). discriminate.
Qed.
Print Assumptions C18_halving_conserves_length.

(** a segment of length 2: the first step fails, two steps of length 1 are stored *)
Lemma ex_fail b l u : 1 < l -> call (exALM b) (l, u) = Ok (NotConverged, (l, u), mkCall l u NotConverged u (Rabs (u - u))).
Proof. intros H. unfold call. cbn. apply Rltb_true in H. rewrite H. reflexivity. Qed.
Lemma ex_ok b l u : l <= 1 -> call (exALM b) (l, u) = Ok (Success, (l, u + l), mkCall l u Success (u + l) (Rabs (u + l - u))).
Proof. intros H. unfold call. cbn. apply Rltb_false in H. rewrite H. reflexivity. Qed.
Example C18_example : exists ds ss up lo a' log,
  correction_ (exALM false) (fun _ _ => false) 4 1 (0, 0) 2 10 9 (25/2) = Ok (ds, ss, up, lo, a', log) /\
  length log = 3%nat /\ length ss = 2%nat /\ last ds 0 = Rabs (25/2 - (10 + 2/1/2 + (0 + 2/1/2))).
Proof.
  unfold correction_. cbn [Nat.eqb exALM alm_setPrevious alm_setSolution alm_setLength fst snd]. cbv zeta.
  cbn [corrLoop Nat.eqb INR]. rewrite ex_fail by lra. cbn [rbind].
  cbn [retry status_eqb orb exALM alm_setLength alm_setSolution fst snd].
  cbn [corrLoop Nat.eqb]. rewrite ex_ok by lra. cbn [rbind].
  cbn [retry status_eqb orb negb exALM alm_setLength alm_setSolution fst snd alm_solution alm_distance].
  cbn [corrLoop Nat.eqb]. rewrite ex_ok by lra. cbn [rbind].
  cbn [retry status_eqb orb negb exALM alm_setLength alm_setSolution fst snd alm_solution alm_distance].
  cbn [corrLoop Nat.eqb]. do 6 eexists. split; [reflexivity|]. cbn. auto.
Qed.

(** ** C19: the result of a correction passes the length check of submit *)
Theorem C19_correction_result_accepted :
  forall (sol : Type) (A : ALM sol) opposite fuel n a D start prev ref ds ss up lo a' log,
  almLaws A -> 0 < D ->
  correction_ A opposite fuel n a D start prev ref = Ok (ds, ss, up, lo, a', log) ->
  (* every stored step advances by at least the requested length *)
  (forall c, In c (filter stored log) -> sc_length c <= sc_dist c) ->
  length ds = S (length ss) /\ Forall (fun x => 0 < x) (removelast ds) /\
  (D - Rsum (removelast ds)) / D < 1 / 10 ^ 12.
Proof.
  intros sol A opp fuel n a D start prev ref ds ss up lo a' log HL HD H Hadv.
  destruct (C18_halving_conserves_length sol A opp fuel n a D start prev ref ds ss up lo a' log HL HD H)
    as (H1 & H2 & _ & H3 & H4 & H5 & H6 & H7 & _).
  split; auto. rewrite H7, removelast_last.
  assert (Hpos : Forall (fun c => 0 < sc_length c) (filter stored log)).
  { rewrite Forall_forall in *. intros c Hc. apply filter_In in Hc as [Hc _]. auto. }
  assert (Hge : Rsum (map sc_length (filter stored log)) <=
                Rsum (map sc_dist (filter stored log))).
  { clear -Hadv. induction (filter stored log) as [|c l IH]; cbn [map]; rewrite ?Rsum_nil, ?Rsum_cons; [lra|].
    pose proof (Hadv c (or_introl eq_refl)). specialize (IH (fun x Hx => Hadv x (or_intror Hx))). lra. }
  split.
  - rewrite Forall_map, Forall_forall in *. intros c Hc. specialize (Hadv c Hc). specialize (Hpos c Hc). lra.
  - apply Rle_lt_trans with 0; [|apply Rdiv_lt_0_compat; [lra|apply pow_lt; lra]].
    rewrite H1 in Hge. unfold Rdiv. apply Rmult_le_reg_r with D; auto. rewrite Rmult_assoc, Rinv_l, Rmult_0_l; lra.
Qed.
Print Assumptions C19_correction_result_accepted.

(** so it is an answer under which the drivers never fail (C14-C17, C20, C65), provided the
    last solution does not coincide with the reference *)
Theorem C19_worker_answer_acceptable :
  forall (sol : Type) (A : ALM sol) opposite fuel n a (j : job sol) iv ref ds ss up lo a' log,
  almLaws A -> j_info j = JCorr iv ref -> 0 < j_dt j ->
  correction_ A opposite fuel n a (j_dt j) (j_start j) (j_prev j) ref = Ok (ds, ss, up, lo, a', log) ->
  (forall c, In c (filter stored log) -> sc_length c <= sc_dist c) ->
  0 < alm_distance A a' (last ss (j_start j)) ref ->
  acceptable j (ACorr ds ss up lo).
Proof.
  intros sol A opp fuel n a j iv ref ds ss up lo a' log HL Ej HD H Hadv Hlast.
  destruct (C19_correction_result_accepted sol A opp fuel n a _ _ _ ref ds ss up lo a' log HL HD H Hadv) as (H1 & H2 & H3).
  destruct (C18_halving_conserves_length sol A opp fuel n a _ _ _ ref ds ss up lo a' log HL HD H)
    as (_ & _ & _ & _ & _ & _ & _ & H7 & _).
  unfold acceptable. rewrite Ej. split; auto. split; auto. rewrite H7 in *. rewrite removelast_last in H2.
  apply Forall_app. split; auto.
Qed.
Print Assumptions C19_worker_answer_acceptable.

Theorem C19_initiation_acceptable :
  forall (sol : Type) (A : ALM sol) fuel singular a (j : job sol) t0 dist ss bif a' log,
  j_info j = JInit t0 ->
  initiation A fuel singular a (j_dt j) (j_start j) (j_prev j) = Ok (dist, ss, bif, a', log) ->
  (forall x s, j_start j <> s -> 0 < alm_distance A x (j_start j) s) -> ~ In (j_start j) (firstn 1 ss) ->
  acceptable j (AInit dist ss bif).
Proof.
  intros sol A fuel singular a j t0 dist ss bif a' log Ej H Hd Hn. unfold acceptable. rewrite Ej.
  apply initiation_spec in H as (s & x & _ & -> & H2 & _). destruct bif.
  - destruct H2 as (s' & ->). split; auto. apply Hd. intros E. apply Hn. left; auto.
  - subst ss. split; auto. apply Hd. intros E. apply Hn. left; auto.
Qed.
Print Assumptions C19_initiation_acceptable.

Example C19_example : exists ds ss up lo a' log,
  correction_ (exALM false) (fun _ _ => false) 4 1 (0, 0) 2 10 9 (25/2) = Ok (ds, ss, up, lo, a', log) /\
  (forall c, In c (filter stored log) -> sc_length c <= sc_dist c).
Proof.
  destruct C18_example as (ds & ss & up & lo & a' & log & E & _). exists ds, ss, up, lo, a', log. split; auto.
  assert (HL := exALM_laws false).
  unfold correction_ in E. cbn [Nat.eqb] in E.
  match type of E with rbind ?X _ = _ => destruct X as [[[[ds0 ss0] a0] log0]|] eqn:E1; [|discriminate] end.
  cbn [rbind] in E. destruct (rev ss0); [discriminate|]. injection E as _ _ _ _ _ <-.
  (* a stored step of this solver moves by its length *)
  assert (G : forall fuel dL0 dL rem b k N old ds ss (a : alm_state (exALM false)) lg ds' ss' a' lg',
    corrLoop (exALM false) fuel dL0 dL rem b k N old ds ss a lg = Ok (ds', ss', a', lg') ->
    (forall c, In c (filter stored lg) -> sc_length c <= sc_dist c) ->
    forall c, In c (filter stored lg') -> sc_length c <= sc_dist c).
  { induction fuel as [|f IH]; intros dL0 dL rem b k N old dss sss a lg ds1 ss1 a1 lg1 H Hlg; cbn [corrLoop] in H;
      (destruct (Nat.eqb k N); [injection H as <- <- <- <-; auto|]); [discriminate|].
    unfold call in H. destruct (alm_step (exALM false) a) as [[s a2]|] eqn:Es; [|discriminate]. cbn [rbind] in H.
    assert (Hnew : forall c, In c (filter stored (lg ++ [mkCall (alm_getLength (exALM false) a) (alm_solution (exALM false) a) s
          (alm_solution (exALM false) a2) (alm_distance (exALM false) a2 (alm_solution (exALM false) a) (alm_solution (exALM false) a2))])) ->
        sc_length c <= sc_dist c).
    { intros c Hc. rewrite filter_app in Hc. apply in_app_or in Hc as [Hc|Hc]; auto. cbn [filter] in Hc.
      cbn in Es. destruct (Rltb 1 (fst a)) eqn:El; injection Es as <- <-; cbn in Hc; [contradiction|].
      destruct Hc as [<-|[]]. cbn. pose proof (Rle_abs (snd a + fst a - snd a)). lra. }
    destruct (retry s); [eapply IH; eauto|]. destruct b; cbn [negb] in H; eapply IH; eauto. }
  eapply G; [exact E1|]. cbn. tauto.
Qed.

(** ** C68: only converged solutions are stored. Refuted: a step that fails with SolverError
    is stored. *)
Theorem C68_only_converged_stored_refuted :
  exists (A : ALM R) a ds ss up lo a' log, almLaws A /\
  correction_ A (fun _ _ => false) 1 1 a 1 10 9 12 = Ok (ds, ss, up, lo, a', log) /\
  ss <> [] /\ Forall (fun c => sc_status c = SolverError) log.
Proof.
  exists {| alm_state := R * R; alm_setLength l a := (l, snd a); alm_getLength a := fst a;
            alm_setSolution s a := (fst a, s); alm_setPrevious s a := a; alm_solution a := snd a;
            alm_step a := Ok (SolverError, a); alm_distance a x y := Rabs (y - x);
            alm_spot s a := Ok (a, false); alm_switchBranch a := Ok a |}.
  exists (0, 0). do 6 eexists. split; [constructor; reflexivity|]. split; [reflexivity|]. split; [discriminate|]. repeat constructor.
Qed.
Print Assumptions C68_only_converged_stored_refuted.

(** when steps return no other statuses than these three, only converged solutions are stored *)
Theorem C68_only_converged_stored_partial :
  forall (sol : Type) (A : ALM sol) opposite fuel n a D start prev ref ds ss up lo a' log,
  almLaws A -> 0 < D ->
  correction_ A opposite fuel n a D start prev ref = Ok (ds, ss, up, lo, a', log) ->
  Forall (fun c => sc_status c = Success \/ sc_status c = NotConverged \/ sc_status c = AssemblyError) log ->
  forall s, In s ss -> exists c, In c log /\ sc_status c = Success /\ sc_to c = s.
Proof.
  intros sol A opp fuel n a D start prev ref ds ss up lo a' log HL HD H HF s Hs.
  destruct (C18_halving_conserves_length sol A opp fuel n a _ _ _ ref ds ss up lo a' log HL HD H)
    as (_ & _ & _ & H3 & _). rewrite H3 in Hs. apply in_map_iff in Hs as (c & E & Hc). apply filter_In in Hc as [Hc Hst].
  exists c. split; auto. split; auto. rewrite Forall_forall in HF. specialize (HF c Hc). unfold stored in Hst.
  destruct HF as [E'|[E'|E']]; rewrite E' in *; auto; discriminate.
Qed.
Print Assumptions C68_only_converged_stored_partial.

(** ** C69: the halving stops if short steps converge *)
Theorem C69_correction_terminates :
  forall (sol : Type) (A : ALM sol) opposite n a D start prev ref eps,
  almLaws A -> 0 < D -> (1 <= n)%nat -> 0 < eps ->
  (forall x : alm_state A, alm_getLength A x <= eps -> exists x', alm_step A x = Ok (Success, x')) ->
  (forall x : alm_state A, alm_step A x <> Fail EFuel) ->
  exists fuel, correction_ A opposite fuel n a D start prev ref <> Fail EFuel.
Proof.
  intros sol A opp n a D start prev ref eps HL HD Hn He Hs Hf.
  assert (Hn' : 0 < INR n) by (apply lt_0_INR; lia). assert (Hq : 0 < D / INR n) by (apply Rdiv_lt_0_compat; auto).
  set (a0 := alm_setPrevious A prev (alm_setSolution A start (alm_setLength A (D / INR n) a))).
  assert (Hdel : 0 < Rmin (D / INR n) (eps / 2)) by (apply Rmin_pos; lra).
  destruct (archim_nat (D / INR n + 0 + (INR n - INR 0 - 1) * (D / INR n)) _ Hdel) as (m1 & Hm1).
  assert (Hm2 : exists m2, D / INR n <= 2 ^ m2 * eps).
  { destruct (Pow_x_infinity 2 ltac:(rewrite Rabs_right; lra) (D / INR n / eps)) as [m2 Hm]. exists m2.
    specialize (Hm m2 (le_n _)). rewrite Rabs_right in Hm by (apply Rle_ge, pow_le; lra).
    apply Rge_le in Hm. apply (Rmult_le_compat_r eps) in Hm; [|lra]. unfold Rdiv at 1 in Hm.
    rewrite Rmult_assoc, Rinv_l, Rmult_1_r in Hm; lra. }
  destruct Hm2 as (m2 & Hm2).
  destruct (corrLoop_stops A HL eps (D / INR n) He Hq) with (m1 := m1) (m2 := m2) (dL := D / INR n) (rem := 0)
     (b := false) (k := 0%nat) (N := n) (old := start) (ds := @nil R) (ss := @nil sol) (a := a0) (log := @nil (stepCall sol))
     as (fuel & Hr); auto; try lia; try lra; try discriminate.
  - intros x Hx. destruct (Hs x Hx) as (x' & Ex). exists Success, x'. auto.
  - unfold a0. rewrite (al_length_prev _ HL), (al_length_sol _ HL), (al_length _ HL). reflexivity.
  - apply Rmin_l.
  - replace (0 <? n)%nat with true by (symmetry; apply Nat.ltb_lt; lia). exact Hm1.
  - exists fuel. unfold correction_. replace (Nat.eqb n 0) with false by (symmetry; apply Nat.eqb_neq; lia).
    cbv zeta. fold a0. match goal with |- rbind ?X _ <> _ => destruct X as [[[[ds ss] a1] log]|e] eqn:Er end.
    2: { cbn [rbind]. congruence. }
    cbn [rbind]. destruct (opp ref (alm_solution A a1)); [discriminate|]. destruct (rev ss); discriminate.
Qed.
Print Assumptions C69_correction_terminates.

Theorem C69_initiation_terminates :
  forall (sol : Type) (A : ALM sol) singular a dL start prev eps,
  almLaws A -> 0 < eps ->
  (forall x : alm_state A, alm_getLength A x <= eps -> exists x', alm_step A x = Ok (Success, x')) ->
  (* no step ends with another failure than these two, and no call runs forever *)
  (forall x : alm_state A, match alm_step A x with Ok (s, _) => In s [Success; NotConverged; AssemblyError] | Fail e => e <> EFuel end) ->
  (forall s (x : alm_state A), alm_spot A s x <> Fail EFuel) -> (forall x : alm_state A, alm_switchBranch A x <> Fail EFuel) ->
  exists fuel, initiation A fuel singular a dL start prev <> Fail EFuel.
Proof.
  intros sol A singular a dL start prev eps HL He Hs Hc Hsp Hsw.
  set (a0 := alm_setPrevious A prev (alm_setSolution A start (alm_setLength A dL a))).
  assert (El : alm_getLength A a0 = dL).
  { unfold a0. rewrite (al_length_prev _ HL), (al_length_sol _ HL), (al_length _ HL). reflexivity. }
  assert (Hm2 : exists m2, alm_getLength A a0 <= 2 ^ m2 * eps).
  { rewrite El. destruct (Pow_x_infinity 2 ltac:(rewrite Rabs_right; lra) (dL / eps)) as [m2 Hm]. exists m2.
    specialize (Hm m2 (le_n _)). rewrite Rabs_right in Hm by (apply Rle_ge, pow_le; lra).
    apply Rge_le in Hm. apply (Rmult_le_compat_r eps) in Hm; [|lra]. unfold Rdiv at 1 in Hm.
    rewrite Rmult_assoc, Rinv_l, Rmult_1_r in Hm; lra. }
  destruct Hm2 as (m & Hm).
  destruct (initLoop_stops A HL eps start He Hs) with (m := m) (a := a0) (log := @nil (stepCall sol)) as (fuel & Hr); auto.
  { intros x. specialize (Hc x). destruct (alm_step A x) as [[s x']|]; auto. destruct Hc as [E|[E|[E|[]]]]; rewrite <- E; auto. }
  rewrite El in Hr. exists fuel. unfold initiation. cbv zeta. fold a0.
  match goal with |- rbind ?X _ <> _ => destruct X as [[a1 log]|e] eqn:Er end; [|cbn [rbind]; congruence]. cbn [rbind].
  destruct singular; [|discriminate]. specialize (Hsp start a1). destruct (alm_spot A start a1) as [[a2 b]|]; [|cbn [rbind]; congruence].
  cbn [rbind]. destruct b; [|discriminate]. specialize (Hsw a2). destruct (alm_switchBranch A a2); [discriminate|cbn [rbind]; congruence].
Qed.
Print Assumptions C69_initiation_terminates.

Example C69_example : exists (A : ALM R) eps, almLaws A /\ 0 < eps /\
  (forall x : alm_state A, alm_getLength A x <= eps -> exists x', alm_step A x = Ok (Success, x')) /\
  (forall x : alm_state A, match alm_step A x with Ok (s, _) => In s [Success; NotConverged; AssemblyError] | Fail e => e <> EFuel end) /\
  (forall s (x : alm_state A), alm_spot A s x <> Fail EFuel) /\ (forall x : alm_state A, alm_switchBranch A x <> Fail EFuel) /\
  (exists x x' : alm_state A, alm_step A x = Ok (NotConverged, x')).
Proof.
  exists (exALM false), 1. split; [apply exALM_laws|]. split; [lra|]. split; [|split; [|split; [|split]]].
  - intros x Hx. cbn in *. replace (Rltb 1 (fst x)) with false by (symmetry; apply Rltb_false; auto). eauto.
  - intros x. cbn. destruct (Rltb 1 (fst x)); cbn; auto.
  - discriminate.
  - discriminate.
  - exists (2, 0), (2, 0). cbn. replace (Rltb 1 2) with true by (symmetry; apply Rltb_true; lra). reflexivity.
Qed.

(** ** C16, at the level of arc-length steps: one initiation repeats a step that fails with
    SolverError forever *)
Theorem C16_initiation_refuted :
  exists A : ALM R, almLaws A /\
  forall fuel singular a dL start prev, initiation A fuel singular a dL start prev = Fail EFuel.
Proof.
  exists {| alm_state := R * R; alm_setLength l a := (l, snd a); alm_getLength a := fst a;
            alm_setSolution s a := (fst a, s); alm_setPrevious s a := a; alm_solution a := snd a;
            alm_step a := Ok (SolverError, a); alm_distance a x y := Rabs (y - x);
            alm_spot s a := Ok (a, false); alm_switchBranch a := Ok a |}.
  split; [constructor; reflexivity|]. intros fuel singular a dL start prev. unfold initiation. cbv zeta.
  match goal with |- rbind (initLoop ?A _ _ ?s _ _) _ = _ =>
    assert (G : forall f d a l, initLoop A f d s a l = Fail EFuel) end.
  { clear. induction f as [|f IH]; intros; cbn [initLoop]; auto. unfold call. cbn. apply IH. }
  rewrite G. reflexivity.
Qed.
Print Assumptions C16_initiation_refuted.

(** ** C22: serialSolve records the curve it walked *)
Theorem C22_serialSolve_records :
  forall (sol : Type) (A : ALM sol) singular mult bmult fuel fuel2 N e a starts c out a',
  serialSolve A singular mult bmult fuel fuel2 N e a starts [] [] = Ok (c, out, a') ->
  (* the branches: the start points in order, then those found at bifurcations *)
  length c = length out /\
  firstn (length starts) (map so_start out) = starts /\
  forall b o, nth_error out b = Some o ->
    let '(u0, dL0, bis) := so_start o in
    let log := so_log o in
    (exists d, nth_error c b = Some d /\ initWith e (so_times o) (so_sols o) = Ok d) /\
    (* times are the running sums of the distances, solutions those of the steps *)
    so_times o = (if bis then [] else [0]) ++ sums 0 (map ic_distance log) /\
    so_sols o = (if bis then [] else [u0]) ++ map (fun c => hd u0 (ic_sols c)) log /\
    (* steps follow each other *)
    (forall k x, nth_error log k = Some x ->
       (* the distance is measured by the solver when it stands at the new solution *)
       (exists y, alm_solution A y = hd u0 (ic_sols x) /\ ic_distance x = alm_distance A y (ic_start x) (hd u0 (ic_sols x))) /\
       (ic_bif x = true -> S k = length log) /\
       match k with
       | O => ic_length x = (if bis then dL0 * mult else dL0) /\ ic_start x = u0 /\ ic_prev x = u0
       | S k' => exists y, nth_error log k' = Some y /\ ic_length x = dL0 /\
                   ic_start x = hd u0 (ic_sols y) /\ ic_prev x = ic_start y
       end).
Proof.
  intros sol A singular mult bmult fuel fuel2 N e a starts c out a' H.
  apply serialSolve_spec in H as (ds & outs & E1 & E2 & H3 & H4). cbn in E1, E2. subst ds outs.
  split; [clear -H3; induction H3; cbn; auto|]. split.
  { rewrite H4. rewrite firstn_app, Nat.sub_diag, firstn_all. cbn. apply app_nil_r. }
  intros b o Ho.
  assert (Hd : exists d, nth_error c b = Some d /\ initWith e (so_times o) (so_sols o) = Ok d /\ branchSpec A mult N o).
  { clear -H3 Ho. revert b Ho. induction H3 as [|d x c out Hx _ IH]; intros [|b] Ho; try discriminate; cbn in *.
    - injection Ho as <-. exists d. auto.
    - auto. }
  destruct Hd as (d & D1 & D2 & D3). unfold branchSpec in D3. destruct (so_start o) as [[u0 dL0] bis].
  destruct D3 as (W & T & S). cbv zeta. split; [eauto|]. split; [auto|]. split; [exact S|].
  intros k x Hk. destruct (walk_nth A u0 dL0 _ _ _ _ _ W k x Hk) as (_ & G2 & G3 & G4). auto.
Qed.
Print Assumptions C22_serialSolve_records.

(** the branches beyond the given start points start from the switched solution of a
    bifurcation, in the order in which these were found *)
Definition switched {sol} (bmult : R) (o : serialOut sol) : list (sol * R * bool) :=
  match rev (so_log o) with
  | x :: _ => if ic_bif x then match ic_sols x with [_; s1] => [(s1, snd (fst (so_start o)) * bmult, true)] | _ => [] end
              else []
  | [] => []
  end.
Theorem C22_branches :
  forall (sol : Type) (A : ALM sol) singular mult bmult fuel fuel2 N e a starts c out a',
  serialSolve A singular mult bmult fuel fuel2 N e a starts [] [] = Ok (c, out, a') ->
  map so_start out = starts ++ concat (map (switched bmult) out).
Proof.
  intros sol A singular mult bmult fuel fuel2 N e a starts c out a' H.
  apply serialSolve_spec in H as (ds & outs & E1 & E2 & H3 & H4). cbn in E1, E2. subst ds outs. exact H4.
Qed.
Print Assumptions C22_branches.

(** ** C20 for serialSolve: at most N points, N without bifurcation *)
Theorem C20_serialSolve_points :
  forall (sol : Type) (A : ALM sol) singular mult bmult fuel fuel2 N e a starts c out a' o,
  serialSolve A singular mult bmult fuel fuel2 N e a starts [] [] = Ok (c, out, a') ->
  (1 <= N)%Z -> In o out ->
  (Z.of_nat (length (so_times o)) <= N)%Z /\ length (so_sols o) = length (so_times o) /\
  (Forall (fun x => ic_bif x = false) (so_log o) -> snd (so_start o) = false -> Z.of_nat (length (so_times o)) = N).
Proof.
  intros sol A singular mult bmult fuel fuel2 N e a starts c out a' o H HN Ho.
  apply serialSolve_spec in H as (ds & outs & E1 & E2 & H3 & H4). cbn in E1, E2. subst ds outs.
  assert (D3 : branchSpec A mult N o).
  { clear -H3 Ho. induction H3 as [|d x c out [_ Hx] _ IH]; [contradiction|]. destruct Ho as [<-|Ho]; auto. }
  unfold branchSpec in D3. destruct (so_start o) as [[u0 dL0] bis]. destruct D3 as (W & T & S).
  apply walk_length in W as [W1 W2]. rewrite T, S, !app_length, sums_length, !map_length. cbn [snd].
  assert (length (if bis then [] else [0%R]) <= 1)%nat by (destruct bis; cbn; lia).
  split; [lia|]. split; [destruct bis; reflexivity|]. intros HF ->. rewrite (W2 HF). cbn. lia.
Qed.
Print Assumptions C20_serialSolve_points.

(** ** C71: the branches of serialSolve are valid data for parallelSolve, if every branch
    has two points and distances are positive *)
Theorem C71_serialSolve_prepares_partial :
  forall (sol : Type) (A : ALM sol) singular mult bmult fuel fuel2 N a starts c out a' st ml tol,
  st_solve st = false -> st_dataEmpty st = newData ml tol ->
  serialSolve A singular mult bmult fuel fuel2 N (newData ml tol) a starts [] [] = Ok (c, out, a') ->
  (forall o, In o out -> Forall (fun x => 0 < ic_distance x) (so_log o)) ->
  prepared st c.
Proof.
  intros sol A singular mult bmult fuel fuel2 N a starts c out a' st ml tol Hst He H Hpos.
  apply serialSolve_spec in H as (ds & outs & E1 & E2 & H3 & H4). cbn in E1, E2. subst ds outs.
  split; [eauto|]. rewrite Hst. rewrite Forall_forall. intros d Hd.
  assert (Hd' : exists o, In o out /\ initWith (newData ml tol) (so_times o) (so_sols o) = Ok d /\ branchSpec A mult N o).
  { clear -H3 Hd. induction H3 as [|d' o c out [? ?] _ IH]; [contradiction|]. destruct Hd as [<-|Hd].
    - exists o. split; [left; auto|auto].
    - destruct (IH Hd) as (o' & ? & ?). exists o'. split; [right; auto|auto]. }
  destruct Hd' as (o & Ho & D2 & D3). unfold branchSpec in D3. specialize (Hpos o Ho).
  destruct (so_start o) as [[u0 dL0] bis]. destruct D3 as (W & T & S).
  assert (Hp : Forall (fun x => 0 < x) (map ic_distance (so_log o))) by (apply Forall_map; auto).
  assert (Hi : incr (so_times o)).
  { pose proof (sums_incr _ 0 Hp) as Hs. rewrite T. destruct bis; auto. cbn. apply incr_cons in Hs. tauto. }
  assert (Hl : length (so_times o) = length (so_sols o)).
  { rewrite T, S, !app_length, sums_length, !map_length. destruct bis; reflexivity. }
  pose proof (cr_data ml tol _ _ _ Hi Hl D2) as Hc.
  destruct (created_data_inv ml tol _ _ d Hi Hl D2) as (c0 & I0 & _ & _ & _ & _ & _ & _ & O4 & O5 & _).
  split; [exists ml, tol, d, []; split; [auto|constructor]|]. unfold handedOut, waiting. rewrite O4, O5. split; auto.
  apply Forall_map. rewrite Forall_forall. intros x _. unfold correction. cbn. lia.
Qed.
Print Assumptions C71_serialSolve_prepares_partial.

(** serialSolve(1) gives no valid data: a curve with one point has no parametrisation *)
Theorem C71_serialSolve_one_step_refuted :
  forall (sol : Type) (A : ALM sol) singular mult bmult fuel fuel2 ml tol a u dL,
  serialSolve A singular mult bmult fuel (S fuel2) 1 (newData ml tol) a [(u, dL, false)] [] [] = Fail ENaN.
Proof.
  intros. cbn [serialSolve serialBranch]. change (Z.to_nat (1 - 1)) with 0%nat. cbn [serialSteps rbind].
  unfold initWith, setData. cbn [sortedb negb]. unfold transform01. cbn. rewrite Rminus_eq_0, Reqb_refl. reflexivity.
Qed.
Print Assumptions C71_serialSolve_one_step_refuted.

(** ** C21: the per-level lists of _finalize. They cover all points if every branch has as
    many points as there are branches; see C21_refuted for the other cases. *)
Theorem C21_level_lists_partial :
  forall (sol : Type) (d : data sol) MaxLevel tol d0 h nBranches,
  created MaxLevel tol d0 -> history d0 h d -> (1 <= MaxLevel)%Z ->
  nBranches = length (times d) ->
  exists lvl, finalizeBranch nBranches d = Ok (times d, sols d, levels d, lvl) /\
    forall l, nth l lvl [] =
      map fst (filter (fun x => (snd x =? Z.of_nat l)%Z) (combine (combine (times d) (sols d)) (levels d))).
Proof.
  intros sol d ml tol d0 h n Hc Hh Hml Hn.
  assert (HR : reachable d) by (exists ml, tol, d0, h; auto).
  destruct (C02_export_ordered_complete sol d HR) as (L1 & L2 & L3 & _).
  destruct (C07_levels_bounded sol ml tol d0 d h Hc Hh) as [_ HL].
  destruct (reachable_inv d HR) as (c & I). destruct (inv_opt _ _ I) as [E2 _].
  assert (E0 : d_optMaxLevel d = ml).
  { destruct (history_ids d0 h d Hh (created_inv _ _ _ Hc)) as (_ & _ & E & _). rewrite E.
    destruct Hc as [ts ss d0 X Y Z|s p d0 X].
    - destruct (created_data_inv _ _ _ _ _ X Y Z) as (c0 & _ & _ & _ & _ & E' & _). auto.
    - destruct (created_start_inv _ _ _ _ _ X) as (_ & E' & _). auto. }
  set (lvl0 := repeat (@nil (R * sol)) (Z.to_nat (d_maxLevel d + 1))).
  assert (Hlen : Z.of_nat (length lvl0) = (ml + 1)%Z).
  { unfold lvl0. rewrite repeat_length. rewrite E2, E0. lia. }
  destruct (lvlLoop_total (times d) (sols d) (levels d) L2 L3 n 0 lvl0) as (r & Hr); [lia| |].
  { eapply Forall_impl; [|exact HL]. cbn. intros l Hl. lia. }
  exists r. split.
  - unfold finalizeBranch. unfold times, sols, levels in *. destruct (snd (getFlatSolution d (-1))) as [[t s] l]. cbn [fst snd] in *.
    fold lvl0. rewrite Hr. reflexivity.
  - intros l. apply lvlLoop_spec in Hr as [_ Hr]. rewrite Hr. cbn [skipn].
    assert (En : forall i, nth i lvl0 [] = []).
    { intros i. unfold lvl0. apply nth_repeat. }
    rewrite En. cbn [app]. rewrite firstn_all2; auto. rewrite !combine_length. lia.
Qed.
Print Assumptions C21_level_lists_partial.

(** one branch with three points: only the first one appears; the second and the third
    solution are in no list *)
Theorem C21_refuted :
  exists (d : data nat) r lvl, reachable d /\ sols d = [10; 11; 12]%nat /\
  finalize [d] = Ok [(r, lvl)] /\ map snd (concat lvl) = [10]%nat.
Proof.
  destruct ex_history as (d0 & d1 & d2 & e0 & e1 & Hc & _ & _ & Hh & _ & _ & _ & _ & _ & _ & _ & _ & ML & _ & _ & T & S).
  assert (HR : reachable d2) by (exists 3%Z, (1/10), d0; eauto).
  destruct (C02_export_ordered_complete nat d2 HR) as (L1 & L2 & L3 & _).
  destruct (C07_levels_bounded nat 3 (1/10) d0 d2 _ Hc Hh) as [_ HL].
  unfold finalize, finalizeAll. unfold times, sols, levels in *.
  destruct (getFlatSolution d2 (-1)) as [d2' [[t s] l]] eqn:Eg. cbn [fst snd] in *. subst t s.
  destruct l as [|l0 [|l1 [|l2 [|]]]]; try discriminate.
  inversion HL as [|? ? Hl0 HL1]; subst.
  exists d2. unfold sols. rewrite Eg. cbn [fst snd length].
  assert (E : exists lvl, finalizeBranch 1 d2 = Ok ([0; 1; 2], [10; 11; 12]%nat, [l0; l1; l2], lvl) /\ map snd (concat lvl) = [10]%nat).
  { unfold finalizeBranch. rewrite Eg. cbn [snd]. rewrite ML. change (Z.to_nat (3 + 1)) with 4%nat. cbn [repeat lvlLoop nth_error].
    assert (H4 : l0 = 0%Z \/ l0 = 1%Z \/ l0 = 2%Z \/ l0 = 3%Z) by lia.
    destruct H4 as [->|[->|[->| ->]]]; cbn; eexists; split; reflexivity. }
  destruct E as (lvl & E & Em). rewrite E. cbn [rbind]. eexists. exists lvl. split; auto.
Qed.
Print Assumptions C21_refuted.

(** ** A run of serialSolve with a bifurcation: three points per branch, the step to
    solution 2 detects a bifurcation, the other branch starts from 12. *)
Definition exBif : ALM nat := {|
  alm_state := R * nat;
  alm_setLength l a := (l, snd a);
  alm_getLength a := fst a;
  alm_setSolution s a := (fst a, s);
  alm_setPrevious s a := a;
  alm_solution a := snd a;
  alm_step a := Ok (Success, (fst a, S (snd a)));
  alm_distance a x y := 1;
  alm_spot s a := Ok (a, Nat.eqb (snd a) 2);
  alm_switchBranch a := Ok (fst a, 10 + snd a)%nat
|}.
Lemma exBif_laws : almLaws exBif.
Proof. constructor; reflexivity. Qed.
Lemma ex_serialSolve : exists c out a',
  serialSolve exBif true 2 (1/2) 3 3 3 (newData 3 (1/10)) (0, 0%nat) [(0%nat, 1, false)] [] [] = Ok (c, out, a') /\
  map so_sols out = [[0; 1; 2]; [13; 14]]%nat /\
  map (@so_times nat) out = [[0; 0+1; 0+1+1]; [0+1; 0+1+1]] /\
  (forall o, In o out -> Forall (fun x => 0 < ic_distance x) (so_log o)).
Proof.
  assert (H1 : incr [0; 0+1; 0+1+1]) by (repeat constructor; lra).
  assert (H2 : incr [0+1; 0+1+1]) by (repeat constructor; lra).
  destruct (initWith_total 3 (1/10) _ [0; 1; 2]%nat H1 eq_refl ltac:(cbn; lia)) as (d1 & E1).
  destruct (initWith_total 3 (1/10) _ [13; 14]%nat H2 eq_refl ltac:(cbn; lia)) as (d2 & E2).
  assert (G : forall f2 a st starts c out times ss new a1 log d,
    serialBranch exBif true 2 (1/2) 3 3 a st = Ok (times, ss, new, a1, log) ->
    initWith (newData 3 (1/10)) times ss = Ok d ->
    serialSolve exBif true 2 (1/2) 3 (S f2) 3 (newData 3 (1/10)) a (st :: starts) c out =
    serialSolve exBif true 2 (1/2) 3 f2 3 (newData 3 (1/10)) a1 (starts ++ new) (fst (cAdd c d)) (out ++ [mkSO times ss log st])).
  { intros f2 a st starts c out times ss new a1 log d X Y. cbn [serialSolve]. rewrite X. cbn [rbind]. rewrite Y. reflexivity. }
  erewrite G; [|reflexivity|exact E1]. cbn [app].
  erewrite G; [|reflexivity|exact E2]. cbn [app serialSolve].
  do 3 eexists. split; [reflexivity|]. cbn [map so_sols so_times]. split; [auto|]. split; [auto|].
  intros o [<-|[<-|[]]]; cbn [so_log ic_distance]; repeat constructor; cbn; lra.
Qed.
Example C71_example : exists c out a',
  serialSolve exBif true 2 (1/2) 3 3 3 (newData 3 (1/10)) (0, 0%nat) [(0%nat, 1, false)] [] [] = Ok (c, out, a') /\
  length c = 2%nat /\ prepared (exSettings false 5 2) c.
Proof.
  destruct ex_serialSolve as (c & out & a' & E & S & T & P). exists c, out, a'. split; auto.
  pose proof (C22_serialSolve_records _ _ _ _ _ _ _ _ _ _ _ _ _ _ E) as (L & _). split.
  - rewrite L, <- (map_length so_sols), S. reflexivity.
  - exact (C71_serialSolve_prepares_partial _ _ _ _ _ _ _ _ _ _ _ _ _ (exSettings false 5 2) _ _ eq_refl eq_refl E P).
Qed.

(** with three branches of three points the lists of level 0, 1, ... are complete *)
Example C21_example : exists (d d0 : data nat) h lvl,
  created 3 (1/10) d0 /\ history d0 h d /\ length (times d) = 3%nat /\
  finalizeBranch 3 d = Ok (times d, sols d, levels d, lvl).
Proof.
  destruct ex_history as (d0 & d1 & d2 & e0 & e1 & Hc & _ & _ & Hh & _ & _ & _ & _ & _ & _ & _ & _ & ML & _ & _ & T & S).
  destruct (C21_level_lists_partial nat d2 3 (1/10) d0 _ 3 Hc Hh ltac:(lia)) as (lvl & E & _); [rewrite T; reflexivity|].
  exists d2, d0. do 2 eexists. split; [exact Hc|]. split; [exact Hh|]. split; [rewrite T; reflexivity|exact E].
Qed.

(** ** C70: a correction that ends exactly on the reference. Refuted: the curve 0, 1 with
    solutions 10, 11 is corrected by one step of length 1 to the solution 12 at distance 0 of the
    reference. The knot 1 is stored twice and the solution 11 is lost. *)
Ltac rdec1 :=
  match goal with
  | |- context [Reqb ?a ?b] => first [rewrite (proj2 (Reqb_true a b)) by lra | rewrite (proj2 (Reqb_false a b)) by lra]
  | |- context [Rltb ?a ?b] => first [rewrite (proj2 (Rltb_true a b)) by lra | rewrite (proj2 (Rltb_false a b)) by lra]
  | |- context [Rleb ?a ?b] => first [rewrite (proj2 (Rleb_true a b)) by lra | rewrite (proj2 (Rleb_false a b)) by lra]
  end.
Ltac rrun := repeat (cbv -[Reqb Rltb Rleb Rplus Rminus Rmult Rdiv Rinv Ropp IZR pow]; rdec1);
  cbv -[Reqb Rltb Rleb Rplus Rminus Rmult Rdiv Rinv Ropp IZR pow].
Theorem C70_last_on_reference_refuted :
  exists d0 d1 d2 : data nat,
  initWith (newData 3 (1/10)) [0; 1] [10; 11]%nat = Ok d0 /\ sols d0 = [10; 11]%nat /\
  pop d0 = Ok (d1, (0%nat, 1, 10%nat, 10%nat)) /\
  submit d1 0 [1; 0] [12]%nat 1 1 = Ok d2 /\
  sols d2 = [10; 12]%nat /\ d_xi d2 = [0; 1; 1].
Proof.
  assert (A0 : (0 - 0) / (1 - 0) = 0) by field. assert (A1 : (1 - 0) / (1 - 0) = 1) by field.
  do 3 eexists. split.
  { unfold initWith, setData. cbn [sortedb]. rdec1. cbn [andb negb]. unfold transform01. cbn [last]. rdec1. cbn [map rbind]. rewrite A0, A1.
    rrun. reflexivity. }
  split; [rrun; reflexivity|].
  split; [rrun; rewrite Rminus_0_r; reflexivity|].
  assert (A2 : 0 + (1 - 0) * (0 + 1 - 0) / (0 + 1 + 0 - 0) = 1) by field.
  split; [rrun; rewrite A2; reflexivity|].
  split; rrun; reflexivity.
Qed.
Print Assumptions C70_last_on_reference_refuted.
