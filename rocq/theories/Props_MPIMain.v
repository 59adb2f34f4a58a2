(** C96: main and its workers on the network. *)
From Verif Require Import Prelude APALMData APALMDataProofs APALMDataInv APALMSpec APALMHist APALMDataEx APALMDriver APALMSched APALMExec
  Props_APALMSolver MPI MPINet MPIPhase Props_MPI MPIMain MPINetN MPIMainProofs.
From Coq Require Import Permutation Lra.
Local Open Scope nat_scope.

(** Main and the workers 1..P-1 have ended, no message is on the way and no receive is posted: main
    has the variables of [m], worker [w] was given exactly the jobs [m] sent it, in this order, and
    its solver is in the state [x w]. *)
Definition allEnded {X} (P : nat) (m : main solution) (x : nat -> X) (s : net (result vars) (option (list njob * X))) : Prop :=
  n_main s = MRet (Ok (mkVars (mn_data m) (mn_it m) (mn_njobs m) (mn_workers m) (mn_K m))) /\
  (forall w, 1 <= w < P -> e_prog (n_worker s w) = Ret (Some (map snd (filter (fun y => fst y =? w) (mn_sent m)), x w))) /\
  forall w t, e_out (n_worker s w) t = [] /\ e_posted (n_worker s w) t = [] /\ e_got (n_worker s w) t = [] /\
    e_out (n_half s w) t = [] /\ e_posted (n_half s w) t = [] /\ e_got (n_half s w) t = [].

(** What is asked of a worker: from the states [Inv] of its solver it answers every well-posed job
    acceptably and comes back to such a state; and the loads and sizes of an answer are read before
    they are overwritten, or it has one solution. *)
Definition worksWell {X} (initiation : X -> njob -> X * (R * list solution * bool)) (correction : X -> njob -> X * (list R * list solution * R * R))
    (fl fn : X -> njob -> nat -> nat) (Inv : X -> Prop) : Prop := forall x j, Inv x -> wellPosed j ->
  (match j_info j with
   | JInit _ => let '(x', (d, ss, bif)) := initiation x j in Inv x' /\ acceptable j (AInit d ss bif) /\
       ((forall k, fl x j k = k /\ fn x j k = k) \/ length ss = 1 /\ timing 1 (fl x j) /\ timing 1 (fn x j))
   | JCorr _ _ => let '(x', (ds, ss, up, lo)) := correction x j in Inv x' /\ acceptable j (ACorr ds ss up lo) /\
       ((forall k, fl x j k = k /\ fn x j k = k) \/ length ss = 1 /\ timing 1 (fl x j) /\ timing 1 (fn x j))
   end).
Lemma intact_one ss (fl fn : nat -> nat) : (forall k, fl k = k /\ fn k = k) \/ length ss = 1 /\ timing 1 fl /\ timing 1 fn -> rightSizes ss fn /\ rightLoads ss fl.
Proof.
  intros [H|(L & T1 & T2)]; split; intros k Hk.
  - rewrite (proj2 (H k)). reflexivity.
  - rewrite (proj1 (H k)). reflexivity.
  - specialize (T2 k). replace (fn k) with k by lia. reflexivity.
  - specialize (T1 k). replace (fl k) with k by lia. reflexivity.
Qed.
Lemma works_well {X} initiation correction fl fn (Inv : X -> Prop) : worksWell initiation correction fl fn Inv ->
  forall x j, Inv x -> wellPosed j -> acceptable j (snd (compute initiation correction x j)) /\ intact initiation correction fl fn x j /\ Inv (fst (compute initiation correction x j)).
Proof.
  intros H x j HI HW. specialize (H x j HI HW). unfold intact, compute. destruct (j_info j).
  - destruct (initiation x j) as [x' [[d ss] bif]]. destruct H as (H1 & H2 & H3). apply intact_one in H3. cbn [fst snd answerSols]. auto.
  - destruct (correction x j) as [x' [[[ds ss] up] lo]]. destruct H as (H1 & H2 & H3). apply intact_one in H3. cbn [fst snd answerSols]. auto.
Qed.

(** Whatever the order in which processes and network proceed, all processes end; main is then in a
    state the driver model reaches with answers the workers computed (so that the theorems on
    executions, C15-C19 and others, apply), and all of these states occur. *)
Theorem C96_network {X} eager (st : settings solution) P c initiation correction fl fn (Inv : X -> Prop) (x0 : nat -> X) :
  prepared st c -> worksWell initiation correction fl fn Inv -> (forall w, Inv (x0 w)) ->
  exists m0, startMain st [] P c = Ok m0 /\
  let s0 := system st P c initiation correction fl fn x0 in
  (exists N, forall k s, nruns eager k s0 s -> k <= N) /\
  (forall k s, nruns eager k s0 s -> exists k' s', nruns eager k' s s' /\ stuck eager s') /\
  (forall k s, nruns eager k s0 s -> stuck eager s -> exists tr m x,
     execution st m0 tr m /\ computed initiation correction x0 tr x /\ mn_running m = [] /\ allEnded P m x s) /\
  forall tr m x, execution st m0 tr m -> computed initiation correction x0 tr x -> mn_running m = [] ->
    exists k s, nruns eager k s0 s /\ stuck eager s /\ allEnded P m x s.
Proof.
  intros Hp HW HI. destruct (start_ok st True P c Hp) as (m0 & Hm0 & _). exists m0. split; [exact Hm0|]. cbv zeta.
  pose proof (works_well _ _ _ _ _ HW) as well.
  destruct (system_good eager st P initiation correction fl fn Inv well c Hp m0 Hm0 x0 HI) as (N & G).
  assert (AE : forall m x, @allEnded X P m x (netOf (MRet (Ok (varsOf m))) (ended P m x))).
  { intros m x. split; [reflexivity|]. split; [|intros; cbn; auto 10]. intros w Hw. cbn [netOf n_worker quiet e_prog]. unfold ended.
    destruct (Nat.leb_spec 1 w), (Nat.ltb_spec w P); try lia. reflexivity. }
  split; [|split; [|split]].
  - exists N. intros k s R. apply (good_runs _ _ _ _ G k s R).
  - intros k s R. assert (GS : exists n, good eager (finished st P initiation correction m0 x0) n s).
    { clear HI HW well. revert N G. induction R as [s|k s l s1 s2 E R IH]; intros N G; [eauto|]. destruct (good_step _ _ _ _ _ _ G E) as (n' & -> & G'). eauto. }
    destruct GS as (n & GS). exact (good_ends _ _ _ _ GS).
  - intros k s R U. destruct (good_runs _ _ _ _ G k s R) as [_ H]. destruct (H U) as (tr & m & x & H1 & H2 & H3 & ->). exists tr, m, x. auto.
  - intros tr m x HX HC ER. destruct (exec_run eager st P initiation correction fl fn Inv well c Hp m0 Hm0 x0 tr m HX x HC HI) as (_ & q & G' & RL).
    destruct (execution_inv st False P c m0 tr m Hp Hm0 HX) as [CI Hit Hs Hid HP HD]; [tauto|].
    assert (G2 : goes eager (netOf (loopProg st P (st_maxIt st - length tr) (varsOf m)) q) (netOf (MRet (Ok (varsOf m))) (ended P m x))).
    { apply goes_calms. apply (stop_ends eager st P initiation correction fl fn); auto; [rewrite (ci_njobs _ _ _ CI), ER; reflexivity|lia]. }
    destruct (goes_trans _ _ _ _ G' G2) as [k R]. exists k, (netOf (MRet (Ok (varsOf m))) (ended P m x)). split; [exact R|]. split; [|apply AE].
    apply netOf_stuck. intros w. unfold ended. destruct ((1 <=? w) && (w <? P)); eauto.
Qed.
Print Assumptions C96_network.

(** Two workers counting their jobs: a correction has two solutions and needs half of the step for each,
    every second initiation finds a bifurcation. *)
Definition countInit (n : nat) (j : njob) : nat * (R * list solution * bool) :=
  (S n, if Nat.even n then (1%R, [([INR n; 1%R], 1%R)], false) else (1%R, [([1%R], 2%R); ([INR n], 3%R)], true)).
Definition countCorr (n : nat) (j : njob) : nat * (list R * list solution * R * R) :=
  (S n, ([(j_dt j / 2)%R; (j_dt j / 2)%R; 1%R], [([INR n], 1%R); ([2%R; 3%R], j_dt j)], 1%R, 2%R)).
Lemma count_well : worksWell countInit countCorr (fun _ _ k => k) (fun _ _ k => k) (fun _ => True).
Proof.
  intros n j _ HW. unfold wellPosed, acceptable, countInit, countCorr in *. destruct (j_info j) as [t|iv r].
  - destruct (Nat.even n); cbn [length]; (split; [exact I|]; split; [split; [lra|reflexivity]|left; auto]).
  - split; [exact I|]. split; [|left; auto]. split; [reflexivity|]. split; [repeat constructor; lra|].
    cbn [removelast]. replace (j_dt j - Rsum [j_dt j / 2; j_dt j / 2])%R with 0%R by (unfold Rsum; cbn [fold_right fold_left]; lra).
    unfold Rdiv at 1. rewrite Rmult_0_l. apply Rdiv_lt_0_compat; [lra|apply pow_lt; lra].
Qed.
(** parallelSolve: both workers are busy after the first dispatch loop, either may answer first *)
Example C96_parallel_example eager : exists d0 m0, prepared set3 [d0] /\ startMain set3 [] 3 [d0] = Ok m0 /\ length (mn_running m0) = 2 /\
  let s0 := system set3 3 [d0] countInit countCorr (fun _ _ k => k) (fun _ _ k => k) (fun _ => 0) in
  (exists k s, nruns eager k s0 s /\ stuck eager s) /\
  forall k s, nruns eager k s0 s -> stuck eager s -> exists tr m x,
    execution set3 m0 tr m /\ computed countInit countCorr (fun _ => 0) tr x /\ mn_running m = [] /\ allEnded 3 m x s.
Proof.
  destruct (three_points (([0%R], 0%R) : solution) ([5%R], 10%R) ([9%R], 18%R)) as (d0 & m0 & j1 & j2 & E0 & Hp & Es & Er & _).
  exists d0, m0. split; [exact Hp|]. split; [exact Es|]. split; [rewrite Er; reflexivity|]. cbv zeta.
  destruct (C96_network eager set3 3 [d0] countInit countCorr (fun _ _ k => k) (fun _ _ k => k) (fun _ => True) (fun _ => 0) Hp count_well (fun _ => I)) as (m1 & E1 & _ & H2 & H3 & _).
  rewrite Es in E1. injection E1 as <-. split; [|exact H3]. apply (H2 0). constructor.
Qed.
(** solve with a start point, any number of processes *)
Example C96_solve_example eager P : exists c, let st := mkSettings true 50 10 1 1 (newData 3 (1/10)) in
  prepared st c /\ exists m0, startMain st [] P c = Ok m0 /\
  let s0 := system st P c countInit countCorr (fun _ _ k => k) (fun _ _ k => k) (fun _ => 0) in
  (exists k s, nruns eager k s0 s /\ stuck eager s) /\
  forall k s, nruns eager k s0 s -> stuck eager s -> exists tr m x,
    execution st m0 tr m /\ computed countInit countCorr (fun _ => 0) tr x /\ mn_running m = [] /\ allEnded P m x s.
Proof.
  destruct (newStart_ok 3 (1/10) (([0%R], 0%R) : solution) false) as (d & E & _).
  exists [setLength d 1]. cbv zeta. set (st := mkSettings true 50 10 1 1 (newData 3 (1/10))).
  assert (Hp : prepared st [setLength d 1]).
  { split; [eexists; eexists; reflexivity|]. cbn [st st_solve]. exists ([0%R], 0%R), 1%R. unfold st. cbn [addStarts cAdd st_dataEmpty]. rewrite E. reflexivity. }
  split; [exact Hp|].
  destruct (C96_network eager st P [setLength d 1] countInit countCorr (fun _ _ k => k) (fun _ _ k => k) (fun _ => True) (fun _ => 0) Hp count_well (fun _ => I)) as (m1 & E1 & _ & H2 & H3 & _).
  exists m1. split; [exact E1|]. split; [|exact H3]. apply (H2 0). constructor.
Qed.
