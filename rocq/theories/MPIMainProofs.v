(** The main process of MPIMain goes through the states of APALMDriver. *)
From Verif Require Import Prelude APALMData APALMDataProofs APALMDataInv APALMSpec APALMHist APALMDataEx APALMDriver APALMSched APALMExec
  MPI MPINet MPIPhase Props_MPI MPIMain MPINetN.
From Coq Require Import Permutation.
Local Open Scope nat_scope.

Lemma in_seq1 P w : In w (seq 1 (P - 1)) <-> (1 <=? w) && (w <? P) = true.
Proof. rewrite in_seq, andb_true_iff, Nat.leb_le, Nat.ltb_lt. lia. Qed.

Section Refine.
Context {X : Type}.
Variable eager : nat -> payload -> bool.
Variable st : settings solution.
Variable P : nat.
Variable initiation : X -> njob -> X * (R * list solution * bool).
Variable correction : X -> njob -> X * (list R * list solution * R * R).
Variable fl fn : X -> njob -> nat -> nat.
Notation workerLoop := (workerLoop (st_solve st) initiation correction fl fn).
Notation compute := (compute initiation correction).
Notation netOf := (@netOf (result vars) (option (list njob * X))).
Notation calms := (@calms (result vars) (option (list njob * X)) eager).
Notation good := (@good (result vars) (option (list njob * X)) eager).

Definition kind (j : njob) : Prop := isInit (st_solve st) (j_level j) = match j_info j with JInit _ => true | JCorr _ _ => false end.
(** the worker after it has received the job [j] *)
Definition busyProg (fuel : nat) (x : X) (j : njob) (seen : list njob) : prog (option (list njob * X)) :=
  let b := Z.of_nat (j_branch j) in let i := Z.of_nat (j_ID j) in
  match j_info j with
  | JInit _ => let '(x', (d, ss, bif)) := initiation x j in
      bind (sendBack b i) (fun _ => bind (sendAnsInit (fl x j) (fn x j) d ss bif) (fun _ => workerLoop fuel x' (seen ++ [j])))
  | JCorr _ _ => let '(x', (ds, ss, u, l)) := correction x j in
      bind (sendBack b i) (fun _ => bind (sendAnsCorr (fl x j) (fn x j) ds ss u l) (fun _ => workerLoop fuel x' (seen ++ [j])))
  end.
Lemma upd_twice {Y} (q : nat -> Y) w a b : upd (upd q w a) w b = upd q w b. Proof. apply upd_upd. Qed.
Lemma job_sent w j fuel x seen f q : kind j -> q w = workerLoop (S fuel) x seen ->
  calms (netOf (On w (bind (sendJob j) f)) q) (netOf (On w (f tt)) (upd q w (busyProg fuel x j seen))).
Proof.
  intros K E. unfold sendJob. cbn [MPIMain.workerLoop] in E. unfold kind in K. rewrite bind_bind.
  eapply calms_trans; [eapply net_phase; [apply stop_phase|exact E]|]. cbv beta iota. rewrite bind_bind.
  eapply calms_trans; [eapply net_phase; [apply meta_phase|apply upd_same]|]. cbv beta iota. rewrite K, upd_twice. unfold busyProg.
  destruct j as [b id v dt sj pj info]. cbn [j_info j_branch j_ID j_level entryOf j_dt j_start j_prev] in *. destruct info as [t|iv r].
  - eapply calms_trans; [eapply net_phase; [apply init_phase|apply upd_same]|]. unfold entryOf. cbv beta iota. cbn [j_ID j_dt j_start j_prev]. rewrite upd_twice, !Nat2Z.id. apply calms_refl.
  - eapply calms_trans; [eapply net_phase; [apply corr_phase|apply upd_same]|]. unfold entryOf. cbv beta iota. cbn [j_ID j_dt j_start j_prev]. rewrite upd_twice, !Nat2Z.id. apply calms_refl.
Qed.
(** the second number of an answer *)
Lemma rest_phase i : phase eager (Irecv 1 1 (WaitR 1 Ret)) (Isend 1 [WI i] (WaitS 0 (WaitS 1 (Ret tt)))) (Some [WI i]) tt.
Proof.
  apply phase_flip. apply (phase_group eager 1 [[WI i]] [0; 1] tt (Irecv 1 1 (WaitR 1 Ret)) (Some [WI i])).
  intros B' g. eexists. split.
  - cbn [bind length Nat.add]. eapply RxI; [lia|reflexivity|reflexivity|]. eapply RxW; [apply upd_same|]. apply RxO.
  - intros t. unfold upd. destruct (t =? 1); reflexivity.
Qed.

(** ** main's variables *)
Lemma dispatch_facts m m1 : dispatch st m = Ok m1 -> exists w ws j,
  mn_workers m = w :: ws /\ mn_workers m1 = ws /\ mn_running m1 = mn_running m ++ [(w, j)] /\ mn_sent m1 = mn_sent m ++ [(w, j)] /\
  mn_it m1 = S (mn_it m) /\ kind j /\ dispatchV st (varsOf m) = Ok (varsOf m1, w, j).
Proof.
  unfold dispatchV, dispatch. cbn [varsOf asMain v_data v_it v_njobs v_workers v_K mn_data mn_it mn_njobs mn_workers mn_K mn_running mn_sent mn_done].
  destruct (getFirstNonEmptyBranch (mn_data m)) as [b|]; cbn [rbind]; [|discriminate].
  destruct (branch (mn_data m) b) as [d|]; cbn [rbind]; [|discriminate].
  destruct (pop d) as [[d1 [[[id dt] sj] pj]]|]; cbn [rbind]; [|discriminate].
  destruct (jobLevel d1 id) as [d2 level]. unfold kind, isInit.
  destruct (st_solve st && (level =? 0)%Z)%bool eqn:EK.
  - destruct (jobStartTime d2 id) as [d3 t]. cbn [rbind]. destruct (mn_workers m) as [|w ws]; [discriminate|]. intros H. injection H as <-.
    exists w, ws, (mkJob b id level dt sj pj (JInit t)). cbn. auto 10.
  - destruct (getReferenceByID d2 id) as [d3 [r|]]; cbn [rbind]; [|discriminate]. destruct (jobTimes d3 id) as [d4 iv]. cbn [rbind].
    destruct (mn_workers m) as [|w ws]; [discriminate|]. intros H. injection H as <-.
    exists w, ws, (mkJob b id level dt sj pj (JCorr iv r)). cbn. auto 10.
Qed.
Lemma receive_facts m m1 w j a : receive st m w a = Ok m1 -> runningJob w (mn_running m) = Some j ->
  expectsInit st (varsOf m) (j_branch j) (j_ID j) = Ok (match a with AInit _ _ _ => true | ACorr _ _ _ _ => false end) /\
  receiveV st (varsOf m) w (j_branch j) (j_ID j) a = Ok (varsOf m1).
Proof.
  intros H F. unfold receiveV, expectsInit. unfold receive in *. rewrite F in H. cbn [asMain mn_running runningJob nfind varsOf v_data v_it v_njobs v_workers v_K mn_data].
  unfold runningJob. cbn [nfind]. rewrite Nat.eqb_refl. cbn [j_branch j_ID asMain varsOf v_data v_it v_njobs v_workers v_K mn_data mn_it mn_njobs mn_workers mn_K mn_running mn_sent mn_done].
  destruct (branch (mn_data m) (j_branch j)) as [d|]; cbn [rbind] in *; [|discriminate].
  unfold isInit. destruct (st_solve st).
  - destruct (jobLevel d (j_ID j)) as [d1 level]. destruct a as [ds ss up lo|dist ss bif].
    + destruct (level =? 0)%Z eqn:EL; cbn [rbind] in *; [discriminate|].
      destruct (receiveCorr (setBranch (mn_data m) (j_branch j) d1) (j_branch j) (j_ID j) ds ss up lo) as [c|]; cbn [rbind] in *; [|discriminate].
      injection H as <-. cbn. auto.
    + destruct (level =? 0)%Z eqn:EL; cbn [rbind] in *; [|discriminate].
      destruct (receiveInit st (setBranch (mn_data m) (j_branch j) d1) (mn_K m) (j_branch j) (j_ID j) dist ss bif) as [[c K]|]; cbn [rbind] in *; [|discriminate].
      injection H as <-. cbn. auto.
  - destruct (jobLevel d (j_ID j)) as [d1 level]. destruct a as [ds ss up lo|dist ss bif]; cbn in *; [|discriminate].
    destruct (receiveCorr (setBranch (mn_data m) (j_branch j) d) (j_branch j) (j_ID j) ds ss up lo) as [c|]; cbn [rbind] in *; [|discriminate].
    injection H as <-. cbn. auto.
Qed.

(** ** Abstract and concrete states *)
(** the jobs that main has sent to worker w *)
Definition sentTo (w : nat) (m : main solution) : list njob := map snd (filter (fun y => fst y =? w) (mn_sent m)).
Lemma sentTo_snoc w v j m m1 : mn_sent m1 = mn_sent m ++ [(v, j)] -> sentTo w m1 = sentTo w m ++ (if v =? w then [j] else []).
Proof. intros E. unfold sentTo. rewrite E, filter_app, map_app. cbn. destruct (v =? w); reflexivity. Qed.
Record rel (m : main solution) (x : nat -> X) (q : nat -> prog (option (list njob * X))) : Prop := mkRel {
  rl_pool : Permutation (pool m) (seq 1 (P - 1));
  rl_none : forall w, ~ In w (seq 1 (P - 1)) -> q w = Ret None;
  rl_idle : forall w, In w (mn_workers m) -> exists f, q w = workerLoop f (x w) (sentTo w m) /\ S (st_maxIt st) <= f + length (mn_sent m);
  rl_busy : forall w j, In (w, j) (mn_running m) -> kind j /\
    exists f seen, q w = busyProg f (x w) j seen /\ sentTo w m = seen ++ [j] /\ S (st_maxIt st) <= f + length (mn_sent m)
}.
Lemma pool_nodup (m : main solution) : Permutation (pool m) (seq 1 (P - 1)) -> NoDup (pool m).
Proof. intros H. eapply Permutation_NoDup; [symmetry; exact H|apply seq_NoDup]. Qed.
Lemma nodup_app_disjoint {Y} (l1 l2 : list Y) a : NoDup (l1 ++ l2) -> In a l1 -> In a l2 -> False.
Proof.
  induction l1 as [|b l1 IH]; intros ND H1 H2; [contradiction|]. inversion ND as [|? ? N ND']; subst. destruct H1 as [->|H1]; [apply N, in_or_app; auto|eauto].
Qed.

(** the dispatch loop *)
Lemma dispatch_run k fuel : forall m m' x q, dispatchLoop st fuel m = Ok m' -> rel m x q -> mn_it m = length (mn_sent m) ->
  exists q', calms (netOf (dispatchProg st fuel (varsOf m) k) q) (netOf (k (varsOf m')) q') /\ rel m' x q'.
Proof.
  induction fuel as [|fuel IH]; intros m m' x q H RL EI; cbn [dispatchLoop dispatchProg] in *;
    change (canDispatch st (asMain (varsOf m) [])) with (canDispatch st m) in *; destruct (canDispatch st m) eqn:EC; try discriminate;
    try (injection H as <-; exists q; split; [apply calms_refl|exact RL]).
  destruct (dispatch st m) as [m1|] eqn:ED; cbn [rbind] in H; [|discriminate].
  destruct (dispatch_facts m m1 ED) as (w & ws & j & W & W1 & R1 & S1 & I1 & K & ->).
  apply canDispatch_true in EC as (_ & Hit & _). destruct RL as [RP RN RI RB].
  destruct (RI w) as (f & Eq & Lf); [rewrite W; left; reflexivity|]. destruct f as [|f]; [lia|].
  assert (ND := pool_nodup m RP). unfold pool in ND. rewrite W in ND. cbn in ND. inversion ND as [|? ? NIw ND']; subst.
  assert (RL1 : rel m1 x (upd q w (busyProg f (x w) j (sentTo w m)))).
  { constructor.
    - rewrite <- RP. unfold pool. rewrite R1, W, map_app. cbn [map fst]. rewrite app_assoc. symmetry. apply Permutation_cons_append.
    - intros v Hv. rewrite upd_other; [auto|]. intros ->. apply Hv. eapply Permutation_in; [exact RP|]. unfold pool. rewrite W. left. reflexivity.
    - intros v Hv. assert (v <> w) by (intros ->; apply NIw, in_or_app; auto). rewrite upd_other by auto.
      destruct (RI v) as (f' & E' & L'); [rewrite W; right; exact Hv|]. exists f'.
      rewrite (sentTo_snoc v w j m m1 S1), (proj2 (Nat.eqb_neq w v)), app_nil_r by auto. split; [exact E'|]. rewrite S1, app_length. lia.
    - intros v j' Hv. rewrite R1 in Hv. apply in_app_or in Hv as [Hv|[E'|[]]].
      + assert (v <> w) by (intros ->; apply NIw, in_or_app; right; apply (in_map fst) in Hv; exact Hv). rewrite upd_other by auto.
        destruct (RB v j' Hv) as (K' & f' & seen & E' & E'' & L'). split; auto. exists f', seen.
        rewrite (sentTo_snoc v w j m m1 S1), (proj2 (Nat.eqb_neq w v)), app_nil_r by auto. split; [exact E'|]. split; auto. rewrite S1, app_length. lia.
      + injection E' as <- <-. split; auto. exists f, (sentTo w m). rewrite upd_same. split; auto. rewrite (sentTo_snoc w w j m m1 S1), Nat.eqb_refl.
        split; auto. rewrite S1, app_length. cbn. lia. }
  destruct (IH m1 m' x _ H RL1) as (q' & C & RL'); [rewrite I1, S1, app_length, EI; cbn; lia|].
  exists q'. split; [|exact RL'].
  eapply calms_trans; [eapply job_sent; [exact K|exact Eq]|]. eapply calms_trans; [apply net_ret|]. exact C.
Qed.

(** the receipt of an answer *)
Definition answerSols (a : nanswer) : list solution := match a with ACorr _ ss _ _ => ss | AInit _ ss _ => ss end.
Definition intact (x : X) (j : njob) : Prop := let ss := answerSols (snd (compute x j)) in rightSizes ss (fn x j) /\ rightLoads ss (fl x j).
Lemma back_split {Y} b i (g : unit -> prog Y) :
  bind (sendBack b i) g = Isend 0 [WI b] (bind (Isend 1 [WI i] (WaitS 0 (WaitS 1 (Ret tt)))) g).
Proof. reflexivity. Qed.
Lemma isend_inj {Y} t u m m' (a b : prog Y) : Isend t m a = Isend u m' b -> a = b.
Proof. congruence. Qed.
Lemma busy_first f x j seen : exists r, busyProg f x j seen = Isend 0 [WI (Z.of_nat (j_branch j))] r.
Proof.
  unfold busyProg. destruct (j_info j).
  - destruct (initiation x j) as [x' [[d ss] bif]]. eexists. reflexivity.
  - destruct (correction x j) as [x' [[[ds ss] u] l]]. eexists. reflexivity.
Qed.
Lemma answer_received m m1 w j x x' a f seen q r K : rel m x q -> In (w, j) (mn_running m) ->
  q w = busyProg f (x w) j seen -> q w = Isend 0 [WI (Z.of_nat (j_branch j))] r ->
  compute (x w) j = (x', a) -> acceptable j a -> intact (x w) j -> receive st m w a = Ok m1 ->
  calms (netOf (On w (bind (receiveProg st (varsOf m) w (Some [WI (Z.of_nat (j_branch j))])) K)) (upd q w r))
        (netOf (On w (K (Ok (varsOf m1)))) (upd q w (workerLoop f x' (seen ++ [j])))).
Proof.
  intros RL Hin Eq Er Ec Ha [Hs Hl] Hr.
  assert (ND : NoDup (map fst (mn_running m))).
  { pose proof (pool_nodup m (rl_pool _ _ _ RL)) as ND. unfold pool in ND. clear -ND. induction (mn_workers m); auto. inversion ND; auto. }
  destruct (dropRunning_spec w j _ ND Hin) as [_ F]. destruct (receive_facts m m1 w j a Hr F) as [HE HV].
  unfold receiveProg. rewrite Ec in Hs, Hl. cbn [snd] in Hs, Hl. rewrite Eq in Er. unfold busyProg in Er. unfold MPIMain.compute in Ec. unfold acceptable in Ha.
  assert (EB : forall (KK : option payload -> prog (result vars)), bind (Irecv 1 1 (WaitR 1 KK)) K = bind (Irecv 1 1 (WaitR 1 Ret)) (fun y => bind (KK y) K)) by reflexivity.
  rewrite EB. clear EB. destruct (j_info j) as [t|iv rf].
  - destruct (initiation (x w) j) as [x1 [[d ss] bif]]. injection Ec as <- <-. cbn [answerSols] in *. rewrite back_split in Er. apply isend_inj in Er. subst r.
    eapply calms_trans; [eapply net_phase; [apply rest_phase|rewrite upd_same; reflexivity]|]. cbv beta iota.
    rewrite !Nat2Z.id. rewrite HE. rewrite bind_bind.
    eapply calms_trans; [eapply net_phase; [apply phase_flip, ansInit_phase; exact Hs|apply upd_same]|]. cbv beta iota. cbn [bind].
    rewrite received_right by exact Hl. rewrite HV, !upd_twice. apply calms_refl.
  - destruct (correction (x w) j) as [x1 [[[ds ss] u] l]]. injection Ec as <- <-. cbn [answerSols] in *. rewrite back_split in Er. apply isend_inj in Er. subst r.
    eapply calms_trans; [eapply net_phase; [apply rest_phase|rewrite upd_same; reflexivity]|]. cbv beta iota.
    rewrite !Nat2Z.id. rewrite HE. rewrite bind_bind.
    eapply calms_trans; [eapply net_phase; [apply phase_flip, ansCorr_phase; [exact Hs|apply Ha]|apply upd_same]|]. cbv beta iota. cbn [bind].
    rewrite received_right by exact Hl. rewrite HV, !upd_twice. apply calms_refl.
Qed.
Lemma rel_received m m1 w j x x' f seen q : rel m x q -> In (w, j) (mn_running m) ->
  sentTo w m = seen ++ [j] -> S (st_maxIt st) <= f + length (mn_sent m) ->
  mn_workers m1 = mn_workers m ++ [w] -> mn_running m1 = dropRunning w (mn_running m) -> mn_sent m1 = mn_sent m ->
  rel m1 (upd x w x') (upd q w (workerLoop f x' (seen ++ [j]))).
Proof.
  intros [RP RN RI RB] Hin Es Lf W1 R1 S1. assert (ND := pool_nodup m RP). unfold pool in ND.
  assert (NDr : NoDup (map fst (mn_running m))) by (clear -ND; induction (mn_workers m); auto; inversion ND; auto).
  destruct (dropRunning_spec w j _ NDr Hin) as [PM _].
  assert (ES : forall v, sentTo v m1 = sentTo v m) by (intros v; unfold sentTo; rewrite S1; reflexivity).
  assert (Hw : In w (map fst (mn_running m))) by (apply (in_map fst) in Hin; exact Hin).
  constructor.
  - rewrite <- RP. unfold pool. rewrite W1, R1, <- app_assoc. apply Permutation_app_head. cbn [app]. rewrite PM at 2. reflexivity.
  - intros v Hv. rewrite upd_other; auto. intros ->. apply Hv. eapply Permutation_in; [exact RP|]. unfold pool. apply in_or_app. auto.
  - intros v Hv. rewrite W1 in Hv. apply in_app_or in Hv as [Hv|[<-|[]]].
    + assert (v <> w) by (intros ->; eapply nodup_app_disjoint; eauto). rewrite !upd_other by auto. rewrite ES, S1. auto.
    + rewrite !upd_same. exists f. rewrite ES, Es, S1. auto.
  - intros v j' Hv. rewrite R1 in Hv.
    assert (v <> w).
    { intros ->. pose proof (Permutation_NoDup (Permutation_map fst PM) NDr) as N. cbn in N. inversion N as [|? ? N1 _]; subst. apply N1. apply (in_map fst) in Hv. exact Hv. }
    rewrite !upd_other by auto. rewrite ES, S1. apply RB. eapply Permutation_in; [symmetry; exact PM|]. right. exact Hv.
Qed.

(** ** The end *)
Definition ended (m : main solution) (x : nat -> X) (w : nat) : prog (option (list njob * X)) :=
  if (1 <=? w) && (w <? P) then Ret (Some (sentTo w m, x w)) else Ret None.
Lemma stop_run (a : result vars) m x : forall ws q, NoDup ws -> (forall w, In w ws -> exists f, q w = workerLoop (S f) (x w) (sentTo w m)) ->
  calms (netOf (stopProg ws a) q) (netOf (MRet a) (fun w => if existsb (Nat.eqb w) ws then Ret (Some (sentTo w m, x w)) else q w)).
Proof.
  induction ws as [|w ws IH]; intros q ND H; cbn [stopProg existsb].
  - apply calms_refl.
  - inversion ND as [|? ? NI ND']; subst. destruct (H w (or_introl eq_refl)) as (f & E). cbn [MPIMain.workerLoop] in E.
    eapply calms_trans; [eapply net_phase; [apply stop_phase|exact E]|]. cbv beta iota.
    eapply calms_trans; [apply net_ret|]. eapply calms_trans; [apply IH; [exact ND'|]|].
    + intros v Hv. rewrite upd_other; [apply H; right; exact Hv|]. intros ->. contradiction.
    + match goal with |- calms (netOf _ ?a) (netOf _ ?b) => assert (EQ : a = b); [|rewrite EQ; apply calms_refl] end.
      extensionality v. unfold upd. destruct (Nat.eqb_spec v w) as [->|N]; cbn [orb]; [destruct (existsb (Nat.eqb w) ws); reflexivity|reflexivity].
Qed.

(** ** All runs *)
(** the answers of [tr] are the ones the workers compute, each from the state of its solver *)
Inductive computed (x0 : nat -> X) : list (nat * njob * nanswer) -> (nat -> X) -> Prop :=
| cp_nil : computed x0 [] x0
| cp_snoc tr x w j x' a : computed x0 tr x -> compute (x w) j = (x', a) -> computed x0 (tr ++ [(w, j, a)]) (upd x w x').
Definition finished (m0 : main solution) (x0 : nat -> X) (s : net (result vars) (option (list njob * X))) : Prop :=
  exists tr m x, execution st m0 tr m /\ mn_running m = [] /\ computed x0 tr x /\ s = netOf (MRet (Ok (varsOf m))) (ended m x).
(** what is asked of the workers: from good states of their solvers they answer well-posed jobs
    acceptably and stay in good states *)
Variable Inv : X -> Prop.
Hypothesis well : forall x j, Inv x -> wellPosed j -> acceptable j (snd (compute x j)) /\ intact x j /\ Inv (fst (compute x j)).
Variable c : container solution.
Hypothesis Hprep : prepared st c.
Variable m0 : main solution.
Hypothesis Hm0 : startMain st [] P c = Ok m0.
Variable x0 : nat -> X.

Lemma netOf_stuck (a : result vars) q : (forall w, exists b, q w = Ret b) -> stuck eager (netOf (MRet a) q).
Proof.
  intros H l. destruct (label_cases l) as [->|[(w & ->)|(w & d & Hd & ->)]]; [reflexivity|reflexivity|].
  rewrite nfire_at by auto. cbn [MPIMain.netOf n_half n_worker]. destruct (H w) as (b & ->). destruct d; [discriminate| | |]; reflexivity.
Qed.
Lemma stop_ends m x q rounds : rel m x q -> mn_running m = [] -> mn_njobs m = 0 -> length (mn_sent m) <= st_maxIt st ->
  calms (netOf (loopProg st P rounds (varsOf m)) q) (netOf (MRet (Ok (varsOf m))) (ended m x)).
Proof.
  intros RL ER EN Hs. assert (EL : loopProg st P rounds (varsOf m) = stopProg (seq 1 (P - 1)) (Ok (varsOf m))).
  { destruct rounds; cbn [loopProg]; change (v_njobs (varsOf m)) with (mn_njobs m); rewrite EN; reflexivity. }
  rewrite EL. eapply calms_trans; [apply (stop_run (Ok (varsOf m)) m x); [apply seq_NoDup|]|].
  - intros w Hw; destruct (rl_idle _ _ _ RL w) as (f & E & Lf);
      [assert (Hw' : In w (pool m)) by (eapply Permutation_in; [symmetry; exact (rl_pool _ _ _ RL)|exact Hw]);
       unfold pool in Hw'; rewrite ER, app_nil_r in Hw'; exact Hw'|destruct f as [|f]; [lia|eauto]].
  - assert (EQ : (fun w => if existsb (Nat.eqb w) (seq 1 (P - 1)) then Ret (Some (sentTo w m, x w)) else q w) = ended m x);
      [extensionality w; unfold ended; destruct ((1 <=? w) && (w <? P)) eqn:EW;
       [rewrite (waited w) by (apply in_seq1; exact EW); reflexivity|
        destruct (existsb (Nat.eqb w) (seq 1 (P - 1))) eqn:EX; [apply existsb_exists in EX as (v & Hv & EX); apply Nat.eqb_eq in EX as <-; apply in_seq1 in Hv; congruence|];
        apply (rl_none _ _ _ RL); rewrite in_seq1, EW; discriminate]|rewrite EQ; apply calms_refl].
Qed.
Lemma loop_good rounds : forall tr m x q, execution st m0 tr m -> computed x0 tr x -> rel m x q -> (forall w, Inv (x w)) ->
  st_maxIt st <= length tr + rounds -> exists N, good (finished m0 x0) N (netOf (loopProg st P rounds (varsOf m)) q).
Proof.
  induction rounds as [|rounds IH]; intros tr m x q HX HC RL HI L;
    destruct (execution_inv st False P c m0 tr m Hprep Hm0 HX) as [CI Hit Hs Hid HP HD]; try tauto; try (intros []);
    pose proof (ci_njobs _ _ _ CI) as EN; pose proof (Permutation_length (ci_logs _ _ _ CI)) as PL; rewrite HD, app_length, map_length in PL.
  all: assert (Stop : mn_running m = [] -> exists N, good (finished m0 x0) N (netOf (loopProg st P 0 (varsOf m)) q)).
  1,3: intros ER; eapply good_from; [apply netOf_plain|apply (stop_ends m x q 0 RL ER); [rewrite EN, ER; reflexivity|lia]|];
    exists 0; cbn [MPINetN.good]; assert (U : stuck eager (netOf (MRet (Ok (varsOf m))) (ended m x)));
    [apply netOf_stuck; intros w; unfold ended; destruct ((1 <=? w) && (w <? P)); eauto|split; [|exact U]; intros _; exists tr, m, x; auto].
  all: cbn [loopProg] in Stop; change (v_njobs (varsOf m)) with (mn_njobs m) in Stop; rewrite EN in Stop.
  all: cbn [loopProg]; change (v_njobs (varsOf m)) with (mn_njobs m); rewrite EN; destruct (mn_running m) as [|[w1 j1] rr] eqn:ER;
    cbn [length Nat.eqb]; try (apply Stop; reflexivity).
  - cbn in PL. lia.
  - rewrite <- ER in *. clear Stop.
    set (busy := fun w => exists j, In (w, j) (mn_running m)).
    eapply (good_any eager (finished m0 x0) _ q P busy (map fst (mn_running m))).
    + intros w Hw. exists None. apply (rl_none _ _ _ RL). rewrite in_seq. lia.
    + intros w (j & Hj). apply (in_map fst) in Hj. exact Hj.
    + exists w1, j1. rewrite ER. left. reflexivity.
    + intros w (j & Hj). destruct (rl_busy _ _ _ RL w j Hj) as (_ & f & seen & E & _). destruct (busy_first f (x w) j seen) as (r & E'). rewrite E. eauto.
    + intros w Hw. destruct (in_dec Nat.eq_dec w (mn_workers m)) as [I|I].
      * destruct (rl_idle _ _ _ RL w I) as (f & E & _). unfold settleAll. rewrite E. destruct f; reflexivity.
      * unfold settleAll. rewrite (rl_none _ _ _ RL); [reflexivity|]. intros Hq. apply (Permutation_in _ (Permutation_sym (rl_pool _ _ _ RL))) in Hq.
        unfold pool in Hq. apply in_app_or in Hq as [Hq|Hq]; [contradiction|]. apply in_map_iff in Hq as ([w' j] & E & Hj). cbn in E. subst w'. apply Hw. exists j. exact Hj.
    + intros w mm r (j & Hj) Er. destruct (rl_busy _ _ _ RL w j Hj) as (K & f & seen & E & E2 & Lf).
      destruct (busy_first f (x w) j seen) as (r' & E'). assert (EM : mm = [WI (Z.of_nat (j_branch j))]) by congruence. subst mm. cbn [length Nat.eqb].
      destruct (well (x w) j (HI w)) as (Ha & Hin & HI'); [eapply running_dt; eauto|].
      destruct (compute (x w) j) as [x' a] eqn:Ec. cbn [fst snd] in Ha, HI'.
      destruct (receive_ok st False m w j a (proj1 Hprep) CI Hj Ha) as (m1 & HR & C1 & I1 & W1 & R1 & S1 & D1); [tauto|].
      destruct (round_ok st False P tr m w j a (proj1 Hprep)) as (m' & Hround & EI'); auto; [constructor; auto|tauto|].
      pose proof Hround as HR'. unfold round in HR'. rewrite HR in HR'. cbn [rbind] in HR'. unfold dispatchAll in HR'.
      pose proof (rel_received m m1 w j x x' f seen q RL Hj E2 Lf W1 R1 S1) as RL1.
      destruct (dispatch_run (loopProg st P rounds) _ m1 m' _ _ HR' RL1) as (q' & CR & RL'); [rewrite I1, S1; exact Hs|].
      eapply good_from; [apply netOf_plain|eapply answer_received; eauto|].
      eapply good_from; [apply netOf_plain|apply net_ret|].
      eapply good_from; [apply netOf_plain|exact CR|].
      apply (IH (tr ++ [(w, j, a)]) m' (upd x w x')); auto.
      * econstructor; eauto.
      * econstructor; eauto.
      * intros v. unfold upd. destruct (v =? w); auto.
      * rewrite app_length. cbn. lia.
Qed.
(** ** Every order of the answers occurs *)
Definition goes (s t : net (result vars) (option (list njob * X))) : Prop := exists k, nruns eager k s t.
Lemma goes_trans s t u : goes s t -> goes t u -> goes s u.
Proof. intros [n R] [k Q]. exists (n + k). induction R; cbn; [exact Q|]. econstructor; eauto. Qed.
Lemma goes_calms s t : calms s t -> goes s t.
Proof. intros [n R]. exists n. induction R; econstructor; eauto. Qed.
Lemma goes_pick k w mm r q : q w = Isend 0 mm r ->
  goes (netOf (Any k) q) (netOf (k w (if length mm =? 1 then Some mm else None)) (upd q w r)).
Proof.
  intros Eq. exists 2. eapply (NRunS _ _ _ (Wrk w)).
  - cbn [nfire MPIMain.netOf n_half n_worker fire fst snd quiet]. rewrite Eq. cbn. reflexivity.
  - eapply (NRunS _ _ _ (Pick w)); [|constructor]. cbn [nfire n_main n_half n_worker]. rewrite !upd_same. cbn [e_out e_posted quiet e_prog e_got]. rewrite upd_same. rewrite !upd_upd.
    rewrite (upd_id (fun _ : nat => @nil payload) 0). change (mkEp r (fun _ => []) (fun _ => []) (fun _ => [])) with (quiet r). rewrite quiet_upd.
    unfold MPIMain.netOf. f_equal. f_equal; [rewrite (upd_id (fun _ : nat => Ret tt) w); reflexivity|apply quiet_upd].
Qed.
Lemma computed_snoc tr w j a x1 : computed x0 (tr ++ [(w, j, a)]) x1 -> exists x x', computed x0 tr x /\ compute (x w) j = (x', a) /\ x1 = upd x w x'.
Proof.
  intros H. inversion H as [E|tr' x w' j' x' a' H1 H2 E]; [destruct tr; discriminate|]. apply app_inj_tail in E as [-> E]. injection E as -> -> ->. eauto.
Qed.
Lemma start_run : exists q, calms (system st P c initiation correction fl fn x0) (netOf (loopProg st P (st_maxIt st) (varsOf m0)) q) /\ rel m0 x0 q.
Proof.
  unfold system, mainProg. set (q := fun w => if (1 <=? w) && (w <? P) then _ else _).
  pose proof Hm0 as H0. unfold startMain, dispatchAll in H0. cbn [app mn_workers] in H0.
  set (mi := mkMain c 0 0 (seq 1 (P - 1)) [1%Z] [] [] []) in *.
  assert (RL : rel mi x0 q).
  { constructor; cbn [mi mn_workers mn_running mn_sent].
    - unfold pool. cbn. rewrite app_nil_r. reflexivity.
    - intros w Hw. unfold q. rewrite in_seq1 in Hw. destruct ((1 <=? w) && (w <? P)); [congruence|reflexivity].
    - intros w Hw. unfold q. apply in_seq1 in Hw. rewrite Hw. exists (S (st_maxIt st)). split; [reflexivity|cbn; lia].
    - intros w j []. }
  destruct (dispatch_run (loopProg st P (st_maxIt st)) _ mi m0 x0 q H0 RL) as (q' & CR & RL'); [reflexivity|].
  exists q'. auto.
Qed.
Lemma exec_run tr m : execution st m0 tr m -> forall x, computed x0 tr x -> (forall w, Inv (x0 w)) ->
  (forall w, Inv (x w)) /\ exists q, goes (system st P c initiation correction fl fn x0) (netOf (loopProg st P (st_maxIt st - length tr) (varsOf m)) q) /\ rel m x q.
Proof.
  intros HX. induction HX as [|tr m w j a m' HX IH Hj Ha Hround]; intros x HC HI.
  - assert (Ex : x = x0) by (inversion HC as [E|tr' ? ? ? ? ? ? ? E]; [reflexivity|destruct tr'; discriminate]). rewrite Ex. clear HC Ex x. split; auto.
    destruct start_run as (q & CR & RL). exists q. cbn [length]. rewrite Nat.sub_0_r. split; auto. apply goes_calms. exact CR.
  - apply computed_snoc in HC as (xp & x' & HC & Ec & ->). destruct (IH xp HC HI) as (HIp & q & G & RL). clear IH.
    destruct (execution_inv st False P c m0 tr m Hprep Hm0 HX) as [CI Hit Hs Hid HP HD]; [tauto|].
    pose proof (ci_njobs _ _ _ CI) as EN. pose proof (Permutation_length (ci_logs _ _ _ CI)) as PL. rewrite HD, app_length, map_length in PL.
    assert (LR : 1 <= length (mn_running m)) by (destruct (mn_running m); [contradiction|cbn; lia]).
    destruct (well (xp w) j (HIp w)) as (_ & Hin & HI'); [eapply running_dt; eauto|]. rewrite Ec in HI'. cbn [fst] in HI'.
    split; [intros v; unfold upd; destruct (v =? w); auto|].
    destruct (rl_busy _ _ _ RL w j Hj) as (K & f & seen & E & E2 & Lf). destruct (busy_first f (xp w) j seen) as (r & E').
    destruct (receive_ok st False m w j a (proj1 Hprep) CI Hj Ha) as (m1 & HR & C1 & I1 & W1 & R1 & S1 & D1); [tauto|].
    pose proof Hround as HR'. unfold round in HR'. rewrite HR in HR'. cbn [rbind] in HR'. unfold dispatchAll in HR'.
    pose proof (rel_received m m1 w j xp x' f seen q RL Hj E2 Lf W1 R1 S1) as RL1.
    destruct (dispatch_run (loopProg st P (st_maxIt st - S (length tr))) _ m1 m' _ _ HR' RL1) as (q' & CR & RL'); [rewrite I1, S1; exact Hs|].
    exists q'. split; [|exact RL']. eapply goes_trans; [exact G|]. rewrite app_length. cbn [length]. rewrite Nat.add_1_r.
    replace (st_maxIt st - length tr) with (S (st_maxIt st - S (length tr))) by lia. cbn [loopProg]. change (v_njobs (varsOf m)) with (mn_njobs m).
    rewrite EN, (proj2 (Nat.eqb_neq (length (mn_running m)) 0)) by lia.
    eapply goes_trans; [apply goes_pick; rewrite E; exact E'|]. cbn [length Nat.eqb]. eapply goes_trans; [apply goes_calms; eapply answer_received; eauto; rewrite E; exact E'|].
    eapply goes_trans; [apply goes_calms, net_ret|]. apply goes_calms. exact CR.
Qed.
Lemma system_good : (forall w, Inv (x0 w)) -> exists N, good (finished m0 x0) N (system st P c initiation correction fl fn x0).
Proof.
  intros HI. destruct start_run as (q' & CR & RL').
  eapply good_from; [apply netOf_plain|exact CR|]. apply (loop_good (st_maxIt st) [] m0 x0 q'); auto; [apply ex_nil|apply cp_nil].
Qed.
End Refine.
