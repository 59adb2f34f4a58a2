(** Properties C13-C17, C20, C65, C66: the container of branches and the drivers
    gsAPALM::solve and gsAPALM::parallelSolve. The worker side is arbitrary: every order of
    answers and every acceptable answer (see [acceptable]) is covered. *)
From Verif Require Import Prelude APALMData APALMDataProofs APALMDataInv APALMSpec APALMHist APALMDataEx
  Props_APALMData APALMDriver APALMSched APALMExec APALMExecLemmas.
From Coq Require Import Permutation.
Local Open Scope R_scope.

(** ** C13 *)
Theorem C13_container_empty :
  forall (sol : Type) (c : container sol),
  cEmpty c = true <-> forall b d, nth_error c b = Some d -> waiting d = [].
Proof.
  intros sol c. unfold cEmpty. rewrite forallb_forall. split.
  - intros H b d Hd. specialize (H d (nth_error_In _ _ Hd)). unfold isEmpty in H. unfold waiting.
    destruct (d_queue d); [auto|discriminate].
  - intros H d Hd. apply In_nth_error in Hd as [b Hd]. specialize (H b d Hd). unfold isEmpty, waiting in *.
    rewrite H. reflexivity.
Qed.
Print Assumptions C13_container_empty.

(** holds when some branch has work; the full claim also asks that the call is defined when
    nothing waits, see C13_first_branch_refuted *)
Theorem C13_first_branch_partial :
  forall (sol : Type) (c : container sol), (exists b d, nth_error c b = Some d /\ waiting d <> []) ->
  exists b d, getFirstNonEmptyBranch c = Ok b /\ nth_error c b = Some d /\ waiting d <> [] /\
    forall b' d', (b' < b)%nat -> nth_error c b' = Some d' -> waiting d' = [].
Proof.
  intros sol c (b0 & d0 & H0 & W0).
  assert (He : cEmpty c = false).
  { destruct (cEmpty c) eqn:E; auto. exfalso. apply W0. eapply (proj1 (C13_container_empty sol c)); eauto. }
  destruct (firstNonEmpty_spec c 0 He) as (b & d & E & Hd & Hn & Hf). exists b, d. split; [exact E|].
  split; [auto|]. split.
  - unfold isEmpty, waiting in *. destruct (d_queue d); congruence.
  - intros b' d' Hl Hd'. specialize (Hf b' d' Hl Hd'). unfold isEmpty, waiting in *. destruct (d_queue d'); congruence.
Qed.
Print Assumptions C13_first_branch_partial.

Theorem C13_first_branch_refuted :
  exists c : container nat, (exists d, c = [d] /\ reachable d) /\ cEmpty c = true /\
    getFirstNonEmptyBranch c = Fail EUndef.
Proof.
  destruct ex_history as (d0 & d1 & d2 & e0 & e1 & Hc & _ & _ & Hh & _ & _ & _ & _ & _ & _ & Wt & _).
  exists [d2]. split; [exists d2; split; auto; exists 3%Z, (1/10), d0; eauto|].
  unfold cEmpty, getFirstNonEmptyBranch. unfold waiting in Wt. cbn. unfold isEmpty. rewrite Wt. auto.
Qed.
Print Assumptions C13_first_branch_refuted.

(** an idle branch, then one with two waiting segments *)
Example C13_example : exists (c : container nat) d, nth_error c 1 = Some d /\ waiting d <> [] /\
  getFirstNonEmptyBranch c = Ok 1%nat.
Proof.
  destruct ex_history as (d0 & d1 & d2 & e0 & e1 & Hc & _ & _ & Hh & X & _ & _ & _ & _ & _ & Wt & _).
  exists [d2; d0], d0. split; auto.
  assert (W : waiting d0 <> []).
  { unfold waiting. intros E. cbn [exec] in X. unfold pop in X. rewrite E in X.
    destruct (d_init d0); discriminate. }
  split; auto. unfold getFirstNonEmptyBranch. cbn. unfold isEmpty, waiting in *. rewrite Wt.
  destruct (d_queue d0); congruence.
Qed.

(** ** Two prepared containers for the examples *)
Definition exSettings (solve : bool) (maxIt : nat) (N : Z) : settings nat :=
  mkSettings solve maxIt N 1 1 (newData 3 (1/10)).

Lemma ex_start : exists d0 : data nat, initWith (newData 3 (1/10)) [0;1;2] [10;11;12]%nat = Ok d0 /\
  created 3 (1/10) d0 /\ length (waiting d0) = 2%nat /\ handedOut d0 = [] /\ Forall correction (waiting d0).
Proof.
  assert (Hi : incr [0; 1; 2]).
  { apply incr_cons. split; [apply incr_cons; split; [apply incr_one|]|].
    - intros y [<-|[]]; lra.
    - intros y [<-|[<-|[]]]; lra. }
  destruct (initWith_total 3 (1/10) [0;1;2] [10;11;12]%nat Hi eq_refl ltac:(cbn; lia)) as (d0 & E0).
  exists d0. split; auto. split; [apply (cr_data 3 (1/10) [0;1;2] [10;11;12]%nat); auto|].
  destruct (created_data_inv 3 (1/10) [0;1;2] [10;11;12]%nat d0 Hi eq_refl E0) as (c & I0 & Et & Es & Pl & O1 & O2 & O3 & O4 & O5 & Epp).
  destruct c as [|p0 [|p1 [|p2 [|]]]]; try discriminate.
  unfold waiting, handedOut. rewrite O4, O5. cbn. unfold correction. repeat split; auto.
  constructor; [cbn; lia|]. constructor; [cbn; lia|constructor].
Qed.

Lemma ex_prepared_parallel maxIt N : exists d0 : data nat,
  prepared (exSettings false maxIt N) [d0] /\ created 3 (1/10) d0 /\ length (waiting d0) = 2%nat.
Proof.
  destruct ex_start as (d0 & E0 & Hc & W & Ho & Hw). exists d0. split; auto. split; [eexists; eexists; reflexivity|].
  cbn. constructor; [|constructor]. split; auto. exists 3%Z, (1/10), d0, []. split; [auto|constructor].
Qed.

Lemma ex_prepared_solve maxIt N : exists c : container nat, prepared (exSettings true maxIt N) c.
Proof.
  destruct (newStart_ok 3 (1/10) 7%nat false) as (d & E & _).
  exists [setLength d 1]. split; [eexists; eexists; reflexivity|].
  cbn [exSettings st_solve]. exists 7%nat, 1. unfold exSettings. cbn [addStarts cAdd st_dataEmpty].
  rewrite E. reflexivity.
Qed.

(** ** C14: every dispatched job is answered into its branch exactly once.
    [prepared c]: a fresh solve, or parallelSolve on branches without open jobs.
    [m]: any state the main process can reach, [tr]: the answers received so far. *)
Theorem C14_jobs_answered_once :
  forall (sol : Type) (st : settings sol) c P m0 tr m,
  prepared st c -> startMain st [] P c = Ok m0 -> execution st m0 tr m ->
  (* no two jobs sent are the same job of the same branch *)
  NoDup (map (fun x => (j_branch (snd x), j_ID (snd x))) (mn_sent m)) /\
  (* jobs sent = jobs answered + jobs being computed *)
  Permutation (mn_sent m) (map fst tr ++ mn_running m) /\
  mn_njobs m = length (mn_running m) /\
  (* the workers 1..P-1 are idle or compute one job each *)
  Permutation (mn_workers m ++ map fst (mn_running m)) (seq 1 (P - 1)) /\
  NoDup (mn_workers m ++ map fst (mn_running m)) /\
  (* the jobs that a branch regards as active are the ones being computed for it *)
  (forall b d id, nth_error (mn_data m) b = Some d ->
     (exists e, active d id e) <-> (exists w j, In (w, j) (mn_running m) /\ j_branch j = b /\ j_ID j = id)) /\
  (* when the driver stops *)
  (mn_njobs m = 0%nat ->
     Permutation (mn_sent m) (map fst tr) /\ Permutation (mn_workers m) (seq 1 (P - 1)) /\
     forall b d, nth_error (mn_data m) b = Some d -> handedOut d = []).
Proof.
  intros sol st c P m0 tr m Hp H0 H.
  destruct (execution_inv st False P c m0 tr m Hp H0 H) as [C Hit Hs Hid HP HD]; [tauto|].
  assert (HAct : forall b d id, nth_error (mn_data m) b = Some d ->
     (exists e, active d id e) <-> (exists w j, In (w, j) (mn_running m) /\ j_branch j = b /\ j_ID j = id)).
  { intros b d id Hd. pose proof (ci_branches _ _ _ C b d Hd) as BO. split.
    - intros (e & Ha). destruct (bo_active _ _ _ _ _ BO id e Ha) as (w & j & ?). eauto.
    - intros (w & j & H1 & H2 & <-). destruct (bo_run _ _ _ _ _ BO w j H1 H2) as (e & He & _). eauto. }
  split; [apply (ci_nodup _ _ _ C)|]. split; [rewrite <- HD; apply (ci_logs _ _ _ C)|].
  split; [apply (ci_njobs _ _ _ C)|]. split; [exact HP|]. split; [apply (ci_workers _ _ _ C)|].
  split; [exact HAct|].
  intros Hn. rewrite (ci_njobs _ _ _ C) in Hn. apply length_zero_iff_nil in Hn.
  pose proof (ci_logs _ _ _ C) as HL. rewrite Hn, app_nil_r, HD in HL. split; [auto|].
  unfold pool in HP. rewrite Hn in HP. cbn in HP. rewrite app_nil_r in HP. split; auto.
  intros b d Hd. unfold handedOut. destruct (d_jobs d) as [|[id e] jobs] eqn:EJ; auto.
  destruct (proj1 (HAct b d id Hd)) as (w & j & Hin & _); [|rewrite Hn in Hin; contradiction].
  exists e. unfold active. rewrite EJ. left; auto.
Qed.
Print Assumptions C14_jobs_answered_once.

(** where an answer goes: the branch the job was popped from executes submit and finishJob
    with it, or is extended by the new point; the job is not active any more; all other
    branches stay as they are *)
Theorem C14_answer_goes_to_its_branch :
  forall (sol : Type) (st : settings sol) c P m0 tr m w j a,
  prepared st c -> startMain st [] P c = Ok m0 -> execution st m0 tr m ->
  In (w, j) (mn_running m) -> acceptable j a ->
  exists m' d d', receive st m w a = Ok m' /\
    nth_error (mn_data m) (j_branch j) = Some d /\ nth_error (mn_data m') (j_branch j) = Some d' /\
    (forall b, b <> j_branch j -> (b < length (mn_data m))%nat -> nth_error (mn_data m') b = nth_error (mn_data m) b) /\
    (exists e, active d (j_ID j) e) /\ ~ (exists e, active d' (j_ID j) e) /\
    match a with
    | ACorr ds ss up lo => exists d1, submit d (j_ID j) ds ss up lo = Ok d1 /\ d' = finishJob d1 (j_ID j)
    | AInit dist ss bif => exists s, nth_error ss 0 = Some s /\
        times d' = times d ++ [last (times d) 0 + dist] /\ sols d' = sols d ++ [s]
    end.
Proof.
  intros sol st c P m0 tr m w j a Hp H0 H Hin Ha.
  destruct (execution_inv st False P c m0 tr m Hp H0 H) as [C Hit Hs Hid HP HD]; [tauto|].
  assert (HNo : forall m' d', CInv st False m' -> mn_running m' = dropRunning w (mn_running m) ->
     nth_error (mn_data m') (j_branch j) = Some d' -> ~ (exists e, active d' (j_ID j) e)).
  { intros m' d' C' Er Hd' (e & He).
    destruct (bo_active _ _ _ _ _ (ci_branches _ _ _ C' _ _ Hd') _ e He) as (w' & j' & I1 & I2 & I3).
    assert (NDw : NoDup (map fst (mn_running m))).
    { pose proof (ci_workers _ _ _ C) as ND. clear -ND. induction (mn_workers m); auto. inversion ND; auto. }
    destruct (dropRunning_spec w j _ NDw Hin) as [Pm _].
    assert (NDk : NoDup (map key (mn_running m))).
    { pose proof (ci_nodup _ _ _ C) as ND. eapply Permutation_NoDup in ND; [|apply Permutation_map, (ci_logs _ _ _ C)].
      rewrite map_app in ND. clear -ND. induction (map key (mn_done m)); auto. inversion ND; auto. }
    eapply Permutation_NoDup in NDk; [|apply Permutation_map, Pm]. cbn [map] in NDk.
    inversion NDk as [|? ? Hn _]; subst. apply Hn. rewrite Er in I1. apply in_map_iff. exists (w', j').
    split; auto. unfold key. cbn. congruence. }
  destruct Hp as [(ml & tol & He) Hp]. unfold acceptable in Ha.
  destruct (j_info j) as [t0|iv r] eqn:Ei, a as [ds ss up lo|dist ss bif]; try contradiction.
  - destruct Ha as [H1 H2].
    destruct (receive_init_ok st ml tol He False m w j t0 dist ss bif C Hin Ei H1 H2)
      as (m1 & E1 & E2 & E3 & E4 & E5 & E6 & E7 & E8 & k & Y0 & Y1 & Y2 & Y3 & (d & d' & s & Y4 & Y5 & Y6 & (Y7 & Y7') & Y8) & _); [tauto|].
    exists m1, d, d'. split; auto. split; auto. split; auto. split; auto.
    split. { destruct (bo_run _ _ _ _ _ (ci_branches _ _ _ C _ _ Y4) w j Hin eq_refl) as (e & ? & _). eauto. }
    split; [eapply HNo; eauto|]. exists s. auto.
  - destruct Ha as (H1 & H2 & H3).
    destruct (receive_corr_ok st False m w j iv r ds ss up lo C Hin Ei H1 H2 H3)
      as (m1 & E1 & E2 & E3 & E4 & E5 & E6 & E7 & E8 & E9 & E10 & E11 & d & d' & Y1 & Y2 & Y3 & Y4).
    exists m1, d, d'. split; auto. split; auto. split; auto. split; auto.
    split. { destruct (bo_run _ _ _ _ _ (ci_branches _ _ _ C _ _ Y1) w j Hin eq_refl) as (e & ? & _). eauto. }
    split; [eapply HNo; eauto|]. cbn [exec] in Y3.
    destruct (submit d (j_ID j) ds ss up lo) as [d1|]; [|discriminate]. cbn [rbind] in Y3.
    exists d1. split; congruence.
Qed.
Print Assumptions C14_answer_goes_to_its_branch.

(** two workers compute the two segments of a curve at the same time; the execution can be
    completed *)
Example C14_example : exists (st : settings nat) c m0 m,
  prepared st c /\ startMain st [] 3 c = Ok m0 /\ length (mn_running m0) = 2%nat /\
  exists tr, execution st m0 tr m /\ mn_njobs m = 0%nat /\ (2 <= length tr)%nat.
Proof.
  destruct (ex_prepared_parallel 5 0) as (d0 & Hp & Hc & Hw). exists (exSettings false 5 0), [d0].
  destruct (start_ok (exSettings false 5 0) False 3 [d0] Hp) as (m0 & E0 & EI). exists m0.
  (* two dispatches *)
  assert (L2 : length (mn_running m0) = 2%nat).
  { assert (C0 := prepared_inv (exSettings false 5 0) False [d0] [1; 2]%nat Hp
                    ltac:(constructor; [cbn; lia|constructor; [cbn; tauto|constructor]])).
    destruct (two_jobs (exSettings false 5 0) False d0 1 2 [1%Z] ltac:(cbn; lia) Hw C0) as (m2 & j1 & j2 & D & R).
    unfold startMain, dispatchAll in E0. cbn [app seq Nat.sub mn_workers length] in E0. rewrite D in E0.
    injection E0 as <-. rewrite R. reflexivity. }
  destruct (can_complete (exSettings false 5 0) 3 [d0] m0 [] m0 Hp E0 (ex_nil _ _)) as (tr & m & H1 & H2 & _).
  exists m. split; auto. split; auto. split; auto. exists tr. cbn in H1. split; auto.
  destruct (execution_inv (exSettings false 5 0) False 3 [d0] m0 tr m Hp E0 H1) as [C Hit Hs Hid HP HD]; [tauto|].
  split; [rewrite (ci_njobs _ _ _ C), H2; reflexivity|].
  (* both jobs were answered *)
  assert (G : forall t mm, execution (exSettings false 5 0) m0 t mm -> (length (mn_sent m0) <= length (mn_sent mm))%nat).
  { clear -Hp E0. induction 1 as [|t mm w j a m' H' IH Hin Ha Hr]; auto.
    destruct (execution_inv (exSettings false 5 0) False 3 [d0] m0 t mm Hp E0 H') as [C Hit _ _ _ _]; [tauto|].
    destruct (receive_ok _ False mm w j a (proj1 Hp) C Hin Ha) as (m2 & R & C2 & I2 & _ & _ & S2 & _); [tauto|].
    unfold round in Hr. rewrite R in Hr. cbn [rbind] in Hr. unfold dispatchAll in Hr.
    destruct (dispatchLoop_ok _ False (length (mn_workers m2)) m2 C2) as (m3 & js & D & _ & _ & _ & _ & _ & S3 & _); auto; [lia|].
    rewrite D in Hr. injection Hr as <-. rewrite S3, app_length, S2. lia. }
  specialize (G _ _ H1). destruct EI as [C0 _ Hs0 _ _ HD0].
  pose proof (Permutation_length (ci_logs _ _ _ C0)) as P0. rewrite HD0 in P0. cbn in P0. rewrite L2 in P0.
  pose proof (Permutation_length (ci_logs _ _ _ C)) as P1. rewrite HD, H2, app_nil_r, map_length in P1. lia.
Qed.

(** ** C15: iteration limit and termination *)
Theorem C15_dispatch_limit :
  forall (sol : Type) (st : settings sol) c P m0 tr m,
  prepared st c -> startMain st [] P c = Ok m0 -> execution st m0 tr m ->
  (* at most MaxIt jobs are sent, and so at most MaxIt answers are received: the loop ends *)
  (length (mn_sent m) <= st_maxIt st)%nat /\ (length tr <= length (mn_sent m))%nat /\
  (* while a job is computed, every acceptable answer is processed without failure *)
  (forall w j a, In (w, j) (mn_running m) -> acceptable j a ->
     exists m', round st m w a = Ok m' /\ execution st m0 (tr ++ [(w, j, a)]) m') /\
  (* the run can always be completed *)
  (exists tr' m', execution st m0 (tr ++ tr') m' /\ mn_njobs m' = 0%nat) /\
  (* and it only stops when no work waits or the limit is reached *)
  (mn_njobs m = 0%nat -> (2 <= P)%nat ->
     (forall b d, nth_error (mn_data m) b = Some d -> waiting d = []) \/ length (mn_sent m) = st_maxIt st).
Proof.
  intros sol st c P m0 tr m Hp H0 H.
  destruct (execution_inv st False P c m0 tr m Hp H0 H) as [C Hit Hs Hid HP HD]; [tauto|].
  pose proof (Permutation_length (ci_logs _ _ _ C)) as PL. rewrite HD, app_length, map_length in PL.
  split; [lia|]. split; [lia|]. split; [|split].
  - intros w j a Hin Ha. destruct (round_ok st False P tr m w j a (proj1 Hp)) as (m' & R & _); auto.
    + constructor; auto.
    + tauto.
    + exists m'. split; auto. econstructor; eauto.
  - destruct (can_complete st P c m0 tr m Hp H0 H) as (tr' & m' & H1 & H2 & _). exists tr', m'. split; auto.
    destruct (execution_inv st False P c m0 _ m' Hp H0 H1) as [C' _ _ _ _ _]; [tauto|].
    rewrite (ci_njobs _ _ _ C'), H2. reflexivity.
  - intros Hn HP2. rewrite (ci_njobs _ _ _ C) in Hn. apply length_zero_iff_nil in Hn.
    unfold canDispatch in Hid. apply andb_false_iff in Hid as [Hid|Hid].
    + apply andb_false_iff in Hid as [Hid|Hid].
      * left. apply negb_false_iff in Hid. apply C13_container_empty. auto.
      * right. apply Nat.ltb_ge in Hid. lia.
    + unfold pool in HP. rewrite Hn in HP. cbn in HP. rewrite app_nil_r in HP. apply Permutation_length in HP.
      rewrite seq_length in HP. destruct (mn_workers m); [cbn in HP; lia|discriminate].
Qed.
Print Assumptions C15_dispatch_limit.

(** parallelSolve on one process: MaxIt rounds are enough, at most MaxIt corrections are
    done, and the loop only stops when no work waits or the limit is reached *)
Theorem C15_serial_parallelSolve :
  forall (sol : Type) (st : settings sol) work newLen c,
  st_solve st = false -> prepared st c -> (forall n j, wellPosed j -> acceptable j (work n j)) ->
  exists m, serialLoop st work newLen (st_maxIt st) (mkMain c 0 0 [] [1%Z] [] [] []) = Ok m /\
    (length (mn_done m) <= st_maxIt st)%nat /\
    (forall b d, nth_error (mn_data m) b = Some d -> handedOut d = [] /\ reachable d) /\
    ((forall b d, nth_error (mn_data m) b = Some d -> waiting d = []) \/ length (mn_done m) = st_maxIt st).
Proof.
  intros sol st work newLen c Hs Hp Hw.
  destruct (serial_parallel_ok st work newLen Hw Hs (st_maxIt st) (mkMain c 0 0 [] [1%Z] [] [] []) (proj1 Hp))
    as (m & E & C & R & I1 & I2 & I3); auto; cbn; try lia.
  { apply prepared_inv; auto. constructor. }
  exists m. split; auto. split; [lia|]. split.
  - intros b d Hd. split; [|eapply branch_reachable; eauto].
    unfold handedOut. destruct (d_jobs d) as [|[id e] jobs] eqn:EJ; auto.
    destruct (bo_active _ _ _ _ _ (ci_branches _ _ _ C b d Hd) id e) as (w & j & Hin & _);
      [unfold active; rewrite EJ; left; auto|rewrite R in Hin; contradiction].
  - destruct I3 as [I3|I3]; [left; apply C13_container_empty; auto|right; lia].
Qed.
Print Assumptions C15_serial_parallelSolve.

(** the arc-length solver of the examples: every second initiation finds a bifurcation *)
Definition exWork (n : nat) (j : job nat) : answer nat :=
  match j_info j with
  | JInit _ => if Nat.odd n then AInit 1 [n; n] true else AInit 1 [n] false
  | JCorr _ _ => ACorr [j_dt j; 1] [n] 1 1
  end.
Lemma exWork_acceptable n j : wellPosed j -> acceptable j (exWork n j).
Proof.
  unfold wellPosed, acceptable, exWork. destruct (j_info j).
  - intros _. destruct (Nat.odd n); split; auto; lra.
  - intros H. split; [reflexivity|]. split; [repeat constructor; lra|]. cbn [removelast].
    replace (j_dt j - Rsum [j_dt j]) with 0 by (unfold Rsum; cbn [fold_left fold_right]; lra).
    unfold Rdiv at 1. rewrite Rmult_0_l. apply Rdiv_lt_0_compat; [lra|apply pow_lt; lra].
Qed.
Example C15_example : exists (st : settings nat) c, prepared st c /\ st_solve st = false /\
  cEmpty c = false /\ st_maxIt st = 5%nat /\ (forall n j, wellPosed j -> acceptable j (exWork n j)) /\
  exists m, serialLoop st exWork INR 5 (mkMain c 0 0 [] [1%Z] [] [] []) = Ok m.
Proof.
  destruct (ex_prepared_parallel 5 0) as (d0 & Hp & Hc & Hw).
  destruct (C15_serial_parallelSolve nat (exSettings false 5 0) exWork INR [d0] eq_refl Hp exWork_acceptable) as (m & E & _).
  exists (exSettings false 5 0), [d0]. split; auto. split; auto. split.
  - cbn; unfold isEmpty; unfold waiting in Hw; destruct (d_queue d0); [discriminate|reflexivity].
  - split; auto. split; [exact exWork_acceptable|eauto].
Qed.

(** ** C16: solve on one process. `it` counts corrections only, yet the number of jobs is
    bounded, whatever bifurcations are found. (One initiation may need any number of
    arc-length steps, see C16_initiation_refuted.) *)
Theorem C16_serial_solve_bounded_partial :
  forall (sol : Type) (st : settings sol) work newLen c,
  st_solve st = true -> prepared st c -> (forall n j, wellPosed j -> acceptable j (work n j)) ->
  let bound := (st_maxIt st + (st_maxIt st + 1) * Z.to_nat (Z.max 1 (st_Nsteps st - 1)))%nat in
  exists m, serialLoop st work newLen (S bound) (mkMain c 0 0 [] [1%Z] [] [] []) = Ok m /\
    (length (mn_done m) <= bound)%nat /\ (mn_it m <= st_maxIt st)%nat /\
    (forall b d, nth_error (mn_data m) b = Some d -> handedOut d = [] /\ reachable d) /\
    ((forall b d, nth_error (mn_data m) b = Some d -> waiting d = []) \/ mn_it m = st_maxIt st).
Proof.
  intros sol st work newLen c Hs Hp Hw. cbv zeta.
  assert (HL : length c = 1%nat).
  { destruct Hp as [(ml & tol & He) Hp]. rewrite Hs in Hp. destruct Hp as (s & dL & Hp). cbn in Hp.
    destruct (addStartPoint (st_dataEmpty st) 0 s false); [|discriminate]. cbn [rbind] in Hp. injection Hp as <-. reflexivity. }
  destruct (serial_solve_ok st work newLen Hw False Hs ltac:(tauto) (S (stepBound st)) (mkMain c 0 0 [] [1%Z] [] [] []) [0%nat] (proj1 Hp))
    as (m & E & C & R & I1 & I2 & I3); auto; cbn [mn_data mn_it mn_done mn_K length sumK]; try lia.
  { apply prepared_inv; auto. constructor. }
  { unfold SB. cbn [mn_data mn_it]. rewrite HL. repeat split; auto. all: intros; lia. }
  exists m. split; auto. split; auto. split; auto. split.
  - intros b d Hd. split; [|eapply branch_reachable; eauto].
    unfold handedOut. destruct (d_jobs d) as [|[id e] jobs] eqn:EJ; auto.
    destruct (bo_active _ _ _ _ _ (ci_branches _ _ _ C b d Hd) id e) as (w & j & Hin & _);
      [unfold active; rewrite EJ; left; auto|rewrite R in Hin; contradiction].
  - destruct I3 as [I3|I3]; [left; apply C13_container_empty; auto|right; lia].
Qed.
Print Assumptions C16_serial_solve_bounded_partial.

(** with a solver that finds a bifurcation at every second initiation *)
Example C16_example : exists (st : settings nat) c, prepared st c /\ st_solve st = true /\
  st_maxIt st = 5%nat /\ st_Nsteps st = 4%Z /\ (forall n j, wellPosed j -> acceptable j (exWork n j)) /\
  exists m, serialLoop st exWork INR 24 (mkMain c 0 0 [] [1%Z] [] [] []) = Ok m.
Proof.
  destruct (ex_prepared_solve 5 4) as (c & Hp).
  destruct (C16_serial_solve_bounded_partial nat (exSettings true 5 4) exWork INR c eq_refl Hp exWork_acceptable) as (m & E & _).
  exists (exSettings true 5 4), c. do 4 (split; [auto|]). split; [exact exWork_acceptable|]. exists m. exact E.
Qed.

(** ** C17: the curve under every schedule *)
Theorem C17_branches_stay_valid :
  forall (sol : Type) (st : settings sol) c P m0 tr m b d,
  prepared st c -> startMain st [] P c = Ok m0 -> execution st m0 tr m ->
  nth_error (mn_data m) b = Some d ->
  reachable d /\
  incr (times d) /\ length (sols d) = length (times d) /\
  (forall e, In e (waiting d ++ handedOut d) -> correction e ->
     neighbours (times d) (fst (segTimes d e)) (snd (segTimes d e))) /\
  (forall i k e e', i <> k ->
     nth_error (waiting d ++ handedOut d) i = Some e -> nth_error (waiting d ++ handedOut d) k = Some e' ->
     correction e -> correction e' ->
     snd (segTimes d e) <= fst (segTimes d e') \/ snd (segTimes d e') <= fst (segTimes d e)).
Proof.
  intros sol st c P m0 tr m b d Hp H0 H Hd.
  destruct (execution_inv st False P c m0 tr m Hp H0 H) as [C Hit Hs Hid HP HD]; [tauto|].
  pose proof (branch_reachable _ _ _ _ _ C Hd) as HR. split; auto.
  destruct (C02_export_ordered_complete sol d HR) as (_ & H1 & _ & H2 & _).
  destruct (C01_segments_never_overlap sol d HR) as [H3 H4]. split; auto. split; auto. split; auto.
  intros e He Hc. apply H3; auto.
Qed.
Print Assumptions C17_branches_stay_valid.

(** between any two moments of a run no stored solution is lost or reordered *)
Theorem C17_solutions_stay :
  forall (sol : Type) (st : settings sol) c P m0 tr1 m1 tr m b d,
  prepared st c -> startMain st [] P c = Ok m0 -> execution st m0 tr1 m1 -> execution st m1 tr m ->
  nth_error (mn_data m1) b = Some d ->
  exists d', nth_error (mn_data m) b = Some d' /\ subseq (sols d) (sols d').
Proof. intros sol st c P m0 tr1 m1 tr m b d Hp H0 H1 H Hd. eapply execution_keeps; eauto. Qed.
Print Assumptions C17_solutions_stay.

(** a new end point gets the time that its start point has when the answer arrives, plus
    the distance; the start point is the end of the branch at that moment *)
Theorem C17_new_end_point :
  forall (sol : Type) (st : settings sol) c P m0 tr m w j dist ss bif,
  prepared st c -> startMain st [] P c = Ok m0 -> execution st m0 tr m ->
  In (w, j) (mn_running m) -> acceptable j (AInit dist ss bif) ->
  exists m' d d' s, receive st m w (AInit dist ss bif) = Ok m' /\
    nth_error (mn_data m) (j_branch j) = Some d /\ nth_error (mn_data m') (j_branch j) = Some d' /\
    nth_error ss 0 = Some s /\
    times d' = times d ++ [snd (jobStartTime d (j_ID j)) + dist] /\ sols d' = sols d ++ [s] /\
    snd (jobStartTime d (j_ID j)) = last (times d) 0.
Proof.
  intros sol st c P m0 tr m w j dist ss bif Hp H0 H Hin Ha.
  destruct (C14_answer_goes_to_its_branch sol st c P m0 tr m w j _ Hp H0 H Hin Ha)
    as (m' & d & d' & H1 & H2 & H3 & _ & _ & _ & s & H4 & H5 & H6).
  destruct (execution_inv st False P c m0 tr m Hp H0 H) as [C _ _ _ _ _]; [tauto|].
  unfold acceptable in Ha. destruct (j_info j) as [t0|] eqn:Ei; [|contradiction].
  pose proof (start_time_last st False m w j t0 d C Hin Ei H2) as Es.
  exists m', d, d', s. rewrite Es. auto 10.
Qed.
Print Assumptions C17_new_end_point.

(** a branch found at a bifurcation starts at time 0 from the second solution *)
Theorem C17_new_branch :
  forall (sol : Type) (st : settings sol) c P m0 tr m w j dist ss k,
  prepared st c -> startMain st [] P c = Ok m0 -> execution st m0 tr m ->
  In (w, j) (mn_running m) -> acceptable j (AInit dist ss true) ->
  nth_error (mn_K m) (j_branch j) = Some k ->
  exists m', receive st m w (AInit dist ss true) = Ok m' /\
    if (k <? st_Nsteps st - 1)%Z
    then length (mn_data m') = S (length (mn_data m)) /\
         exists n s, nth_error (mn_data m') (length (mn_data m)) = Some n /\ nth_error ss 1 = Some s /\
           times n = [0] /\ sols n = [s] /\ getLength n = st_newLength st
    else length (mn_data m') = length (mn_data m).
Proof.
  intros sol st c P m0 tr m w j dist ss k Hp H0 H Hin Ha Hk.
  destruct (execution_inv st False P c m0 tr m Hp H0 H) as [C _ _ _ _ _]; [tauto|].
  unfold acceptable in Ha. destruct (j_info j) as [t0|] eqn:Ei; [|contradiction].
  destruct Hp as [(ml & tol & He) _]. destruct Ha as [H1 H2].
  destruct (receive_init_ok st ml tol He False m w j t0 dist ss true C Hin Ei H1 H2)
    as (m1 & E1 & E2 & E3 & E4 & E5 & E6 & E7 & E8 & k' & Y0 & Y1 & Y2 & Y3 & _ & Y9); [tauto|].
  rewrite Hk in Y0. injection Y0 as <-. cbn [andb] in *. exists m1. split; auto.
  destruct (k <? st_Nsteps st - 1)%Z; [split; [lia|auto]|lia].
Qed.
Print Assumptions C17_new_branch.

Example C17_example : exists (st : settings nat) c m0 j m',
  prepared st c /\ startMain st [] 2 c = Ok m0 /\ In (1%nat, j) (mn_running m0) /\
  acceptable j (AInit 2 [8; 9]%nat true) /\ nth_error (mn_K m0) (j_branch j) = Some 1%Z /\
  (1 < st_Nsteps st - 1)%Z /\ receive st m0 1 (AInit 2 [8; 9]%nat true) = Ok m' /\ length (mn_data m') = 2%nat.
Proof.
  destruct (ex_prepared_solve 5 4) as (c & Hp).
  destruct (first_init (exSettings true 5 4) c eq_refl ltac:(cbn; lia) Hp) as (m0 & j & t0 & E0 & R0 & Ei & Eb & EK & EL).
  assert (Hin : In (1%nat, j) (mn_running m0)) by (rewrite R0; left; auto).
  assert (Ha : acceptable j (AInit 2 [8; 9]%nat true)) by (unfold acceptable; rewrite Ei; split; [lra|reflexivity]).
  assert (HK : nth_error (mn_K m0) (j_branch j) = Some 1%Z) by (rewrite EK, Eb; reflexivity).
  destruct (C17_new_branch nat _ c 2 m0 [] m0 1 j 2 [8; 9]%nat 1 Hp E0 (ex_nil _ _) Hin Ha HK) as (m' & R & L & _).
  exists (exSettings true 5 4), c, m0, j, m'. cbn [exSettings st_Nsteps]. rewrite EL in L. repeat (split; [auto; try lia|]). auto.
Qed.

(** ** C20: points per branch. Level-0 points of a branch; for Nsteps >= 2.
    (For Nsteps <= 1 see C20_refuted.) *)
Theorem C20_points_per_branch_partial :
  forall (sol : Type) (st : settings sol) c P m0 tr m b d,
  prepared st c -> startMain st [] P c = Ok m0 -> execution st m0 tr m ->
  st_solve st = true -> (2 <= st_Nsteps st)%Z -> nth_error (mn_data m) b = Some d ->
  let n := Z.of_nat (length (filter (fun l => (l =? 0)%Z) (levels d))) in
  (1 <= n <= st_Nsteps st)%Z /\
  (Forall (fun x => bifurcates (snd x) = false) tr ->
   (forall e, In e (waiting d ++ handedOut d) -> seg_lev e <> 0%Z) -> n = st_Nsteps st).
Proof.
  intros sol st c P m0 tr m b d Hp H0 H Hs HN Hd n. unfold n. fold (lev0 d).
  destruct (execution_inv st (Forall (fun x => bifurcates (snd x) = false) tr) P c m0 tr m Hp H0 H) as [C _ _ _ _ _]; [tauto|].
  destruct (ci_K _ _ _ C Hs) as [K1 K2]. destruct (K2 b d Hd) as (k & Hk & Hl & Hb & Hz & Hx).
  unfold maxInit in *. rewrite <- Hl. split; [lia|]. intros Hn He. rewrite Hx; auto; [lia|].
  unfold zeros. clear -He. induction (waiting d ++ handedOut d) as [|e l IH]; auto. cbn [filter].
  destruct (seg_lev e =? 0)%Z eqn:E.
  - apply Z.eqb_eq in E. exfalso. eapply He; [left; reflexivity|auto].
  - apply IH. intros x Hx. apply He. right; auto.
Qed.
Print Assumptions C20_points_per_branch_partial.

(** solve(1) stores two points *)
Theorem C20_refuted :
  exists (st : settings nat) c m0 tr m d,
  prepared st c /\ startMain st [] 2 c = Ok m0 /\ execution st m0 tr m /\ mn_running m = [] /\
  st_solve st = true /\ st_Nsteps st = 1%Z /\ nth_error (mn_data m) 0 = Some d /\
  length (filter (fun l => (l =? 0)%Z) (levels d)) = 2%nat.
Proof.
  destruct (ex_prepared_solve 1 1) as (c & Hp).
  destruct (first_init_answered (exSettings true 1 1) c 8%nat eq_refl eq_refl Hp ltac:(cbn; lia))
    as (m0 & tr & m & d & H1 & H2 & H3 & H4 & H5 & H6 & H7).
  exists (exSettings true 1 1), c, m0, tr, m, d. auto 10.
Qed.
Print Assumptions C20_refuted.

(** solve(2) without bifurcation: a run that ends with two points *)
Example C20_example : exists (st : settings nat) c m0 tr m d,
  prepared st c /\ startMain st [] 2 c = Ok m0 /\ execution st m0 tr m /\ mn_running m = [] /\
  st_solve st = true /\ st_Nsteps st = 2%Z /\ nth_error (mn_data m) 0 = Some d /\
  Forall (fun x => bifurcates (snd x) = false) tr /\
  (forall e, In e (waiting d ++ handedOut d) -> seg_lev e <> 0%Z).
Proof.
  destruct (ex_prepared_solve 1 2) as (c & Hp).
  destruct (first_init_answered (exSettings true 1 2) c 8%nat eq_refl eq_refl Hp ltac:(cbn; lia))
    as (m0 & tr & m & d & H1 & H2 & H3 & H4 & H5 & H6 & H7).
  exists (exSettings true 1 2), c, m0, tr, m, d. do 8 (split; [auto|]).
  intros e He E. assert (Hz : In e (zeros d)) by (apply filter_In; split; [auto|apply Z.eqb_eq; auto]).
  rewrite H7 in Hz. contradiction.
Qed.

(** ** C65: the main process does not fail: no assertion, no out-of-range access, no
    undefined read, in any order of acceptable answers *)
Theorem C65_main_never_fails :
  forall (sol : Type) (st : settings sol) c P, prepared st c ->
  exists m0, startMain st [] P c = Ok m0 /\
  forall tr m w j a, execution st m0 tr m -> In (w, j) (mn_running m) -> acceptable j a ->
    exists m', round st m w a = Ok m'.
Proof.
  intros sol st c P Hp. destruct (start_ok st False P c Hp) as (m0 & E0 & _). exists m0. split; auto.
  intros tr m w j a H Hin Ha.
  destruct (C15_dispatch_limit sol st c P m0 tr m Hp E0 H) as (_ & _ & HP & _).
  destruct (HP w j a Hin Ha) as (m' & R & _). eauto.
Qed.
Print Assumptions C65_main_never_fails.

(** ** C66: a second parallel run on the same object *)
Theorem C66_second_run_refuted :
  exists (st : settings nat) (m1 m2 : main nat) c2 w j1 j2,
  (* first run: parallelSolve on an object without branches ends at once *)
  startMain st [] 2 [] = Ok m1 /\ mn_running m1 = [] /\
  (* second run with the queue m_workers left by the first *)
  prepared st c2 /\ startMain st (mn_workers m1) 2 c2 = Ok m2 /\
  (* two jobs were sent to the same worker *)
  mn_running m2 = [(w, j1); (w, j2)].
Proof.
  destruct (ex_prepared_parallel 5 0) as (d0 & Hp & Hc & Hw).
  exists (exSettings false 5 0), (mkMain [] 0 0 [1%nat] [1%Z] [] [] []).
  assert (C0 := prepared_inv (exSettings false 5 0) False [d0] [1; 2]%nat Hp
                    ltac:(constructor; [cbn; lia|constructor; [cbn; tauto|constructor]])).
  destruct (two_jobs (exSettings false 5 0) False d0 1 2 [1%Z] ltac:(cbn; lia) Hw C0) as (m2 & j1 & j2 & D & R).
  exists (ren (fun _ => 1%nat) m2), [d0], 1%nat, j1, j2.
  split; [reflexivity|]. split; [reflexivity|]. split; [auto|]. split.
  - apply (dispatchLoop_ren _ (fun _ => 1%nat)) in D. exact D.
  - cbn [ren mn_running]. rewrite R. reflexivity.
Qed.
Print Assumptions C66_second_run_refuted.

(** ** C67: solve on an object that has a branch already, for instance after
    serialSolve(2): the counter K has an entry for the first branch only *)
Theorem C67_solve_with_existing_branch_refuted :
  exists (st : settings nat) (dold : data nat) c m0 w j a,
  st_solve st = true /\ st_dataEmpty st = newData 3 (1/10) /\
  initWith (newData 3 (1/10)) [0; 1] [10; 11]%nat = Ok dold /\
  addStarts st [dold] [(7%nat, 1)] = Ok c /\
  startMain st [] 3 c = Ok m0 /\ In (w, j) (mn_running m0) /\ acceptable j a /\
  round st m0 w a = Fail EUndef.
Proof.
  set (st := exSettings true 5 4).
  assert (Hi : incr [0; 1]) by (apply incr_cons; split; [apply incr_one|intros y [<-|[]]; lra]).
  destruct (initWith_total 3 (1/10) [0;1] [10;11]%nat Hi eq_refl ltac:(cbn; lia)) as (d0 & E0).
  destruct (created_data_inv 3 (1/10) [0;1] [10;11]%nat d0 Hi eq_refl E0) as (c0 & I0 & Et & Es & Pl & O1 & O2 & O3 & O4 & O5 & Epp).
  destruct c0 as [|p0 [|p1 [|]]]; try discriminate. cbn [map consecutive fst snd] in O5.
  destruct (newStart_ok 3 (1/10) 7%nat false) as (d1 & E1 & Hc1 & HJ & HZ & HX & HL & HI).
  destruct (created_start_inv _ _ _ _ _ E1) as (_ & _ & _ & _ & _ & EQ).
  assert (Ec : addStarts st [d0] [(7%nat, 1)] = Ok [d0; setLength d1 1]).
  { unfold addStarts, cAdd. cbn [st exSettings st_dataEmpty]. rewrite E1. reflexivity. }
  assert (Z0 : zeros d0 = []).
  { unfold zeros, waiting, handedOut. rewrite O4, O5. reflexivity. }
  assert (HL0 : lev0 d0 = 2%nat).
  { unfold lev0. rewrite (levels_eq _ _ (inv_rep _ _ I0)). inversion Pl as [|? ? P0 Pl']; subst.
    inversion Pl' as [|? ? P1 _]; subst. cbn [map]. rewrite P0, P1. reflexivity. }
  destruct (created_inv _ _ _ Hc1) as (c1 & IC1). destruct (setLength_effect d1 c1 1 IC1) as (I1 & EL1 & _).
  set (mK := mkMain [d0; setLength d1 1] 0 0 [1; 2]%nat [2; 1]%Z [] [] []).
  assert (C : CInv st False mK).
  { constructor; cbn [mK mn_it mn_workers mn_K mn_running mn_sent mn_done mn_data mn_njobs]; auto.
    - constructor.
    - cbn. constructor; [cbn; lia|]. constructor; [cbn; tauto|constructor].
    - intros [|[|b]] d Hd; [| |destruct b; discriminate]; cbn in Hd; injection Hd as <-; constructor.
      + exists []. split; [|intros ? ? []]. exists 3%Z, (1/10), d0. split; [|constructor].
        apply (cr_data 3 (1/10) [0;1] [10;11]%nat); auto.
      + intros id e Ha. unfold active in Ha. rewrite O4 in Ha. contradiction.
      + intros ? ? [].
      + intros ? ? [].
      + cbn [st exSettings st_solve]. rewrite Z0. split; [cbn; lia|intros ? []].
      + exists ([] ++ [(CSetLength 1, ONone)]). split; [|intros ? ? []].
        eapply (bhist_step d1); [exists 3%Z, (1/10), d1; split; [auto|constructor]|exact Logic.I|reflexivity].
      + intros id e Ha. unfold active in Ha. cbn in Ha. rewrite HJ in Ha. contradiction.
      + intros ? ? [].
      + intros ? ? [].
      + cbn [st exSettings st_solve]. change (zeros (setLength d1 1)) with (zeros d1).
        change (d_xi (setLength d1 1)) with (d_xi d1). rewrite HZ, HX. split; [cbn; lia|].
        intros e [<-|[]]. reflexivity.
    - intros ? ? [].
    - intros ? ? [].
    - intros _. split; auto. intros [|[|b]] d Hd; [| |destruct b; discriminate]; cbn in Hd; injection Hd as <-.
      + exists 2%Z. split; auto. unfold k_ok. rewrite HL0, Z0. unfold maxInit. cbn. split; [auto|]. split; [lia|].
        split; [congruence|tauto].
      + exists 1%Z. split; auto. unfold k_ok. rewrite EL1, HL. unfold maxInit. cbn [st exSettings st_Nsteps].
        split; [auto|]. split; [lia|]. split; [lia|tauto]. }
  assert (He0 : cEmpty (mn_data mK) = false).
  { cbn. unfold isEmpty. rewrite O5. reflexivity. }
  destruct (dispatch_ok st False mK 1%nat [2%nat] C He0 eq_refl) as
    (m1 & j1 & D1 & C1 & It1 & W1 & K1 & R1 & S1 & Dn1 & N1 & L1 & B1 & F1 & dd & dd' & e & q & X1 & X2 & X3 & X4 & X5 & _).
  cbn [mK mn_data mn_running mn_it mn_K length] in *.
  assert (Eb : j_branch j1 = 0%nat).
  { destruct (j_branch j1) as [|b]; auto. specialize (F1 0%nat d0 ltac:(lia) eq_refl). unfold isEmpty in F1.
    rewrite O5 in F1. discriminate. }
  rewrite Eb in *. cbn in X1. injection X1 as <-. rewrite O5 in X2. injection X2 as <- <-.
  specialize (B1 1%nat ltac:(lia)). change (nth_error (mn_data m1) 1 = Some (setLength d1 1)) in B1.
  assert (He : cEmpty (mn_data m1) = false).
  { destruct (mn_data m1) as [|y [|y' l]]; try discriminate. cbn in B1. injection B1 as ->. cbn.
    replace (isEmpty (setLength d1 1)) with false; [cbn; rewrite andb_false_r; reflexivity|].
    unfold isEmpty. change (d_queue (setLength d1 1)) with (d_queue d1). rewrite EQ. reflexivity. }
  destruct (dispatch_ok st False m1 2%nat [] C1 He W1) as
    (m2 & j2 & D2 & C2 & It2 & W2 & K2 & R2 & S2 & Dn2 & N2 & L2 & B2 & F2 & dd2 & dd2' & e2 & q2 & Y1 & Y2 & Y3 & Y4 & Y5 & _).
  assert (Eb2 : j_branch j2 = 1%nat).
  { assert (j_branch j2 < length (mn_data m1))%nat by (apply nth_error_Some; congruence). rewrite L1 in *.
    destruct (j_branch j2) as [|[|b]]; auto; [|cbn in *; lia]. rewrite X3 in Y1. injection Y1 as <-. congruence. }
  rewrite Eb2 in *. rewrite B1 in Y1. injection Y1 as <-. cbn in Y2. rewrite EQ in Y2. injection Y2 as <- <-. cbn in Y5.
  assert (Hin : In (2%nat, j2) (mn_running m2)) by (rewrite R2, R1; cbn; auto).
  pose proof (ci_kinds _ _ _ C2 _ _ Hin) as Hk. unfold kind_ok in Hk.
  destruct (j_info j2) as [t0|iv r] eqn:Ei; [|lia].
  destruct (receive_init_ok st 3 (1/10) eq_refl False m2 2%nat j2 t0 1 [8%nat] false C2 Hin Ei ltac:(lra) eq_refl)
    as (m3 & Rc & _); [tauto|].
  exists st, d0, [d0; setLength d1 1], (setKs [1%Z] m2), 2%nat, j2, (AInit 1 [8%nat] false).
  split; [reflexivity|]. split; [reflexivity|]. split; [auto|]. split; [auto|]. split.
  - unfold startMain, dispatchAll. cbn [Nat.sub seq app mn_workers length].
    change (mkMain [d0; setLength d1 1] 0 0 [1; 2]%nat [1]%Z [] [] []) with (setKs [1%Z] mK).
    apply (dispatch_K _ [1%Z]) in D1. apply (dispatch_K _ [1%Z]) in D2.
    cbn [dispatchLoop]. unfold canDispatch at 1. cbn [setKs mn_data mn_it mn_workers].
    change (cEmpty (mn_data mK)) with (cEmpty [d0; setLength d1 1]). rewrite He0.
    cbn [st exSettings st_maxIt negb andb Nat.ltb Nat.leb mK mn_it mn_workers]. fold st. fold mK. rewrite D1. cbn [rbind].
    unfold canDispatch at 1. cbn [setKs mn_data mn_it mn_workers]. rewrite He, It1, W1.
    cbn [st exSettings st_maxIt negb andb Nat.ltb Nat.leb]. fold st. rewrite D2. cbn [rbind].
    unfold canDispatch. cbn [setKs mn_workers]. rewrite W2, andb_false_r. reflexivity.
  - split; [exact Hin|]. split; [unfold acceptable; rewrite Ei; split; [lra|reflexivity]|].
    unfold round. rewrite (receive_K st [1%Z] m2 m3 2%nat j2 1 [8%nat] false Rc).
    + reflexivity.
    + rewrite R2, R1. cbn. reflexivity.
    + rewrite Eb2. reflexivity.
Qed.
Print Assumptions C67_solve_with_existing_branch_refuted.
