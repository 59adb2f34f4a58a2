(** C94: the drivers of gsAPALM on one process and with one worker. *)
From Verif Require Import Prelude APALMData APALMSpec APALMDriver APALMExec RunTac Props_APALMData Props_APALMDriver.
Local Open Scope R_scope.

(** ** A run of main with one worker: while worker 1 computes a job, its answer comes back
    and main goes once round its loop. [work n j] is what an arc-length solver answers to
    the n-th job it is given, the same function as in the serial drivers. *)
Inductive oneWorker {sol} (st : settings sol) (work : nat -> job sol -> answer sol) : main sol -> main sol -> Prop :=
| ow_end m : oneWorker st work m m
| ow_round m j m1 m' : In (1%nat, j) (mn_running m) ->
    round st m 1 (work (length (mn_done m)) j) = Ok m1 -> oneWorker st work m1 m' -> oneWorker st work m m'.
(** the state before the loops *)
Definition begun {sol} (c : container sol) : main sol := mkMain c 0 0 [] [1%Z] [] [] [].

Section Simulation.
Context {sol : Type}.
Implicit Types (st : settings sol) (c : container sol) (m ms mp : main sol) (j : job sol) (a : answer sol).

Definition dispatched st c : result (container sol * job sol) :=
  do b <- getFirstNonEmptyBranch c;
  do d <- branch c b;
  do (d, (id, dt, start, prev)) <- pop d;
  let '(d, level) := jobLevel d id in
  do (d, info) <-
    (if st_solve st && (level =? 0)%Z then
       let '(d, t) := jobStartTime d id in Ok (d, JInit t)
     else
       let '(d, ref) := getReferenceByID d id in
       match ref with
       | None => Fail EEnsure
       | Some r => let '(d, iv) := jobTimes d id in Ok (d, JCorr iv r)
       end);
  Ok (setBranch c b d, mkJob b id level dt start prev info).
Definition received st c (K : list Z) j a : result (container sol * list Z) :=
  do d <- branch c (j_branch j);
  let '(d, level) := if st_solve st then jobLevel d (j_ID j) else (d, 1%Z) in
  let c := setBranch c (j_branch j) d in
  match a with
  | AInit dist ss bif =>
      if (level =? 0)%Z then receiveInit st c K (j_branch j) (j_ID j) dist ss bif else Fail EUndef
  | ACorr ds ss up lo =>
      if (level =? 0)%Z then Fail EUndef
      else do c <- receiveCorr c (j_branch j) (j_ID j) ds ss up lo; Ok (c, K)
  end.

Lemma dispatch_eq st c it nj w ws K run sent dn :
  dispatch st (mkMain c it nj (w :: ws) K run sent dn) =
  do (c', j) <- dispatched st c; Ok (mkMain c' (S it) (S nj) ws K (run ++ [(w, j)]) (sent ++ [(w, j)]) dn).
Proof.
  unfold dispatch, dispatched. cbn [mn_data mn_it mn_njobs mn_workers mn_K mn_running mn_sent mn_done].
  destruct (getFirstNonEmptyBranch c) as [b|]; cbn [rbind]; [|reflexivity].
  destruct (branch c b) as [d|]; cbn [rbind]; [|reflexivity].
  destruct (pop d) as [[d1 [[[id dt] start] prev]]|]; cbn [rbind]; [|reflexivity].
  destruct (jobLevel d1 id) as [d2 level]. destruct (if st_solve st && _ then _ else _) as [[d3 info]|]; reflexivity.
Qed.
Lemma receive_eq st c it nj ws K w j sent dn a :
  receive st (mkMain c it nj ws K [(w, j)] sent dn) w a =
  do (c', K') <- received st c K j a; Ok (mkMain c' it (nj - 1) (ws ++ [w]) K' [] sent (dn ++ [(w, j)])).
Proof.
  unfold receive, received, runningJob, nfind. cbn [mn_data mn_it mn_njobs mn_workers mn_K mn_running mn_sent mn_done dropRunning].
  rewrite Nat.eqb_refl. destruct (branch c (j_branch j)); cbn [rbind]; [|reflexivity].
  destruct (if st_solve st then _ else _) as [d level]. reflexivity.
Qed.
Lemma received_len st l c K j a : st_solve st = false \/ l = st_newLength st ->
  received (withNewLength st l) c K j a = received st c K j a.
Proof.
  intros [H| ->].
  - unfold received. cbn [withNewLength st_solve]. rewrite H. destruct (branch c (j_branch j)); cbn [rbind]; [|reflexivity].
    destruct a; reflexivity.
  - destruct st; reflexivity.
Qed.

(** the serial state [ms] and the state [mp] of main between receiving and sending *)
Record alike st (ms mp : main sol) : Prop := mkAlike {
  al_data : mn_data ms = mn_data mp;
  al_K : mn_K ms = mn_K mp;
  al_sent : map snd (mn_sent ms) = map snd (mn_sent mp);
  al_done : map snd (mn_done ms) = map snd (mn_done mp);
  al_running : mn_running ms = [] /\ mn_running mp = [];
  al_worker : mn_workers mp = [1%nat];
  al_it : (mn_it ms <= mn_it mp)%nat /\ (st_solve st = false -> mn_it ms = mn_it mp)
}.
Lemma alike_round st work newLen ms mp mp1 j m2 : alike st ms mp ->
  (st_solve st = false \/ forall n, newLen n = st_newLength st) ->
  dispatch st mp = Ok mp1 -> mn_running mp1 = [(1%nat, j)] -> mn_done mp1 = mn_done mp ->
  receive st mp1 1 (work (length (mn_done mp)) j) = Ok m2 ->
  exists ms', serialJob st work newLen ms (negb (st_solve st)) = Ok ms' /\ alike st ms' m2.
Proof.
  intros [A1 A2 A3 A4 [A5 A6] A7 [A8 A9]] Hl D R Dn E.
  destruct ms as [c its njs ws K runs sents dns], mp as [cp itp njp wp Kp runp sentp dnp].
  cbn [mn_data mn_it mn_njobs mn_workers mn_K mn_running mn_sent mn_done] in *. subst cp Kp runs runp wp.
  rewrite dispatch_eq in D. unfold serialJob. cbn [mn_data mn_it mn_njobs mn_workers mn_K mn_running mn_sent mn_done].
  rewrite dispatch_eq. destruct (dispatched st c) as [[c' j']|]; [|discriminate]. cbn [rbind app mn_running] in *.
  injection D as <-. cbn [mn_running] in R. injection R as ->.
  rewrite receive_eq in E. rewrite receive_eq.
  assert (EL : length dns = length dnp) by (rewrite <- (map_length snd dns), A4, map_length; reflexivity).
  rewrite EL. rewrite received_len by (destruct Hl as [Hl|Hl]; auto).
  destruct (received st c' K j (work (length dnp) j)) as [[c2 K2]|]; [|discriminate]. cbn [rbind] in *.
  injection E as <-. eexists. split; [reflexivity|].
  constructor; cbn [mn_data mn_it mn_njobs mn_workers mn_K mn_running mn_sent mn_done]; auto.
  - rewrite !map_app. cbn [map snd]. congruence.
  - rewrite !map_app. cbn [map snd]. congruence.
  - split; [destruct (negb (st_solve st) || _); lia|]. intros Hs. rewrite Hs in *. cbn. f_equal. auto.
Qed.

Lemma dispatchAll_one st m : mn_workers m = [1%nat] ->
  dispatchAll st m = if canDispatch st m then do m' <- dispatch st m; dispatchLoop st 0 m' else Ok m.
Proof. intros H. unfold dispatchAll. rewrite H. reflexivity. Qed.
Lemma dispatch_one st m m' : mn_workers m = [1%nat] -> mn_running m = [] -> dispatch st m = Ok m' ->
  exists j, mn_running m' = [(1%nat, j)] /\ mn_workers m' = [] /\ mn_done m' = mn_done m.
Proof.
  intros H1 H2 D. destruct m as [c it nj ws K run sent dn]. cbn [mn_workers mn_running] in *. subst.
  rewrite dispatch_eq in D. destruct (dispatched st c) as [[c' j]|]; [|discriminate]. injection D as <-. exists j. auto.
Qed.
Lemma dispatchLoop_none st m : mn_workers m = [] -> dispatchLoop st 0 m = Ok m.
Proof. intros H. cbn. unfold canDispatch. rewrite H, !andb_false_r. reflexivity. Qed.

Lemma canDispatch_one st m : mn_workers m = [1%nat] ->
  canDispatch st m = negb (cEmpty (mn_data m)) && (mn_it m <? st_maxIt st)%nat.
Proof. intros H. unfold canDispatch. rewrite H, andb_true_r. reflexivity. Qed.

(** what one worker does, the serial loop does *)
Lemma one_to_serial st work newLen fuel : forall ms mp m1 m2 ms',
  alike st ms mp -> dispatchAll st mp = Ok m1 -> oneWorker st work m1 m2 -> mn_running m2 = [] ->
  st_solve st = false \/ (cEmpty (mn_data m2) = true /\ forall n, newLen n = st_newLength st) ->
  serialLoop st work newLen fuel ms = Ok ms' -> alike st ms' m2.
Proof.
  induction fuel as [|fuel IH]; intros ms mp m1 m2 ms' A D W R Hc L.
  all: rewrite (dispatchAll_one st mp (al_worker _ _ _ A)) in D;
    rewrite (canDispatch_one st mp (al_worker _ _ _ A)) in D; cbn [serialLoop] in L;
    rewrite (al_data _ _ _ A) in L;
    destruct (al_it _ _ _ A) as [I1 I2]; destruct (al_running _ _ _ A) as [R1 R2].
  all: destruct (negb (cEmpty (mn_data mp)) && (mn_it mp <? st_maxIt st)%nat) eqn:Ec.
  all: try (apply andb_true_iff in Ec as [Ec1 Ec2]; apply Nat.ltb_lt in Ec2;
            rewrite Ec1, (proj2 (Nat.ltb_lt (mn_it ms) _)) in L by lia; cbn [andb] in L; try discriminate).
  - injection D as <-. inversion W; subst; [|rewrite R2 in *; contradiction].
    destruct (negb (cEmpty (mn_data m2)) && (mn_it ms <? st_maxIt st)%nat); [discriminate|]. injection L as <-. exact A.
  - destruct (dispatch st mp) as [mp1|] eqn:D1; [|discriminate]. cbn [rbind] in D.
    destruct (dispatch_one st mp mp1 (al_worker _ _ _ A) R2 D1) as (j & J1 & J2 & J3).
    rewrite (dispatchLoop_none st mp1 J2) in D. injection D as <-.
    inversion W as [|m j' m1 m' Hin Hr Hw]; subst; [congruence|]. rewrite J1 in Hin. destruct Hin as [Hin|[]]. injection Hin as <-.
    unfold round in Hr. rewrite J3 in Hr. destruct (receive st mp1 1 _) as [mq|] eqn:E; [|discriminate]. cbn [rbind] in Hr.
    destruct (alike_round st work newLen ms mp mp1 j mq A) as (ms1 & S1 & S2); auto; [tauto|].
    rewrite S1 in L. cbn [rbind] in L. eapply (IH ms1 mq m1 m2); eauto.
  - injection D as <-. inversion W; subst; [|rewrite R2 in *; contradiction].
    assert (Ec' : negb (cEmpty (mn_data m2)) && (mn_it ms <? st_maxIt st)%nat = false).
    { destruct Hc as [Hc|[Hc _]]; [rewrite (I2 Hc); exact Ec|rewrite Hc; reflexivity]. }
    rewrite Ec' in L. injection L as <-. exact A.
Qed.

(** and what the serial loop of parallelSolve does, one worker can do *)
Lemma serial_to_one st work newLen fuel : st_solve st = false -> forall ms mp ms',
  alike st ms mp -> serialLoop st work newLen fuel ms = Ok ms' ->
  exists m1 m2, dispatchAll st mp = Ok m1 /\ oneWorker st work m1 m2 /\ mn_running m2 = [].
Proof.
  intros Hs. induction fuel as [|fuel IH]; intros ms mp ms' A L; cbn [serialLoop] in L;
    rewrite (al_data _ _ _ A) in L; destruct (al_it _ _ _ A) as [_ I2]; rewrite (I2 Hs) in L;
    rewrite (dispatchAll_one st mp (al_worker _ _ _ A)), (canDispatch_one st mp (al_worker _ _ _ A));
    destruct (negb (cEmpty (mn_data mp)) && (mn_it mp <? st_maxIt st)%nat) eqn:Ec; try discriminate.
  - exists mp, mp. split; auto. split; [constructor|apply (al_running _ _ _ A)].
  - destruct (serialJob st work newLen ms (negb (st_solve st))) as [ms1|] eqn:E; [|discriminate]. cbn [rbind] in L.
    pose proof E as E'. destruct A as [A1 A2 A3 A4 [A5 A6] A7 [A8 A9]].
    destruct ms as [c its njs ws K runs sents dns], mp as [cp itp njp wp Kp runp sentp dnp].
    cbn [mn_data mn_it mn_njobs mn_workers mn_K mn_running mn_sent mn_done] in *. subst cp Kp runs runp wp.
    assert (EL : length dns = length dnp) by (rewrite <- (map_length snd dns), A4, map_length; reflexivity).
    unfold serialJob in E. cbn [mn_data mn_it mn_njobs mn_workers mn_K mn_running mn_sent mn_done] in E.
    rewrite dispatch_eq in E. rewrite dispatch_eq. destruct (dispatched st c) as [[c' j]|]; [|discriminate].
    cbn [rbind app mn_running] in *. rewrite receive_eq, EL, received_len in E by auto.
    destruct (received st c' K j (work (length dnp) j)) as [[c2 K2]|] eqn:Er; [|discriminate]. cbn [rbind] in E.
    injection E as <-. rewrite dispatchLoop_none by reflexivity.
    match type of L with serialLoop _ _ _ _ ?x = _ => set (ms1 := x) in * end.
    destruct (IH ms1 (mkMain c2 (S itp) (S njp - 1) [1%nat] K2 [] (sentp ++ [(1%nat, j)]) (dnp ++ [(1%nat, j)])) ms') as (m1 & m2 & D & W & R);
      [|exact L|].
    + subst ms1. constructor; cbn [mn_data mn_it mn_njobs mn_workers mn_K mn_running mn_sent mn_done]; auto.
      * rewrite !map_app. cbn [map snd]. congruence.
      * rewrite !map_app. cbn [map snd]. congruence.
      * rewrite Hs. cbn. rewrite (A9 Hs). auto.
    + eexists. exists m2. split; [reflexivity|]. split; auto. eapply ow_round; [left; reflexivity| |exact W].
      unfold round. cbn [mn_done]. rewrite receive_eq, Er. cbn [rbind app]. exact D.
  - exists mp, mp. split; auto. split; [constructor|apply (al_running _ _ _ A)].
Qed.
End Simulation.

Lemma begun_alike {sol} (st : settings sol) c : alike st (begun c) (mkMain c 0 0 [1%nat] [1%Z] [] [] []).
Proof. constructor; cbn; auto. Qed.

(** ** C94. parallelSolve: with one worker main ends with the very data the serial loop
    computes, job by job, whatever the solver does. *)
Theorem C94_parallelSolve : forall (sol : Type) (st : settings sol) work newLen c fuel ms,
  st_solve st = false -> serialLoop st work newLen fuel (begun c) = Ok ms ->
  (exists m0 mp, startMain st [] 2 c = Ok m0 /\ oneWorker st work m0 mp /\ mn_running mp = []) /\
  forall m0 mp, startMain st [] 2 c = Ok m0 -> oneWorker st work m0 mp -> mn_running mp = [] ->
    mn_data mp = mn_data ms /\ map snd (mn_sent mp) = map snd (mn_sent ms) /\ mn_it mp = mn_it ms.
Proof.
  intros sol st work newLen c fuel ms Hs L. split.
  - apply (serial_to_one st work newLen fuel Hs (begun c) _ ms (begun_alike st c) L).
  - intros m0 mp E W R. destruct (one_to_serial st work newLen fuel _ _ _ _ _ (begun_alike st c) E W R (or_introl Hs) L) as [? ? ? ? ? ? [? Hi]].
    specialize (Hi Hs). auto.
Qed.
Print Assumptions C94_parallelSolve.

(** solve: the same if main with its worker was not stopped by MaxIt and both give new
    branches the same length *)
Theorem C94_solve_partial : forall (sol : Type) (st : settings sol) work newLen c fuel ms m0 mp,
  serialLoop st work newLen fuel (begun c) = Ok ms ->
  startMain st [] 2 c = Ok m0 -> oneWorker st work m0 mp -> mn_running mp = [] ->
  (forall b d, nth_error (mn_data mp) b = Some d -> waiting d = []) ->
  (forall n, newLen n = st_newLength st) ->
  mn_data mp = mn_data ms /\ map snd (mn_sent mp) = map snd (mn_sent ms).
Proof.
  intros sol st work newLen c fuel ms m0 mp L E W R Hw Hn.
  assert (Hc : cEmpty (mn_data mp) = true) by (apply C13_container_empty; exact Hw).
  destruct (one_to_serial st work newLen fuel _ _ _ _ _ (begun_alike st c) E W R (or_intror (conj Hc Hn)) L) as []. auto.
Qed.
Print Assumptions C94_solve_partial.

(** an arc-length solver that always steps by 1 and never finds a bifurcation, and one that
    finds one at the first initiation *)
Definition calmWork (n : nat) (j : job nat) : answer nat :=
  match j_info j with JInit _ => AInit 1 [n] false | JCorr _ _ => ACorr [j_dt j; 1] [n] 1 1 end.
Definition forkWork (n : nat) (j : job nat) : answer nat :=
  match j_info j with
  | JInit _ => if Nat.eqb n 0 then AInit 1 [n; 5]%nat true else AInit 1 [n] false
  | JCorr _ _ => ACorr [j_dt j; 1] [n] 1 1
  end.
Lemma calm_acceptable n j : wellPosed j -> acceptable j (calmWork n j).
Proof.
  unfold wellPosed, acceptable, calmWork. destruct (j_info j); intros H; [split; auto; lra|].
  split; [reflexivity|]. split; [repeat constructor; lra|]. cbn [removelast].
  replace (j_dt j - Rsum [j_dt j]) with 0 by (unfold Rsum; cbn [fold_left fold_right]; lra).
  unfold Rdiv at 1. rewrite Rmult_0_l. apply Rdiv_lt_0_compat; [lra|apply pow_lt; lra].
Qed.
Lemma fork_acceptable n j : wellPosed j -> acceptable j (forkWork n j).
Proof.
  intros H. pose proof (calm_acceptable n j H) as Hc. unfold acceptable, calmWork, forkWork in *.
  destruct (j_info j); [|exact Hc]. destruct (Nat.eqb n 0); [split; auto; lra|exact Hc].
Qed.

Lemma loop_job {sol} (st : settings sol) work newLen f m m' r :
  negb (cEmpty (mn_data m)) && (mn_it m <? st_maxIt st)%nat = true ->
  serialJob st work newLen m (negb (st_solve st)) = Ok m' -> serialLoop st work newLen f m' = r -> serialLoop st work newLen (S f) m = r.
Proof. intros H1 H2 H3. cbn [serialLoop]. rewrite H1, H2. exact H3. Qed.
Lemma loop_end {sol} (st : settings sol) work newLen f m :
  negb (cEmpty (mn_data m)) && (mn_it m <? st_maxIt st)%nat = false -> serialLoop st work newLen f m = Ok m.
Proof. intros H1. destruct f; cbn [serialLoop]; rewrite H1; reflexivity. Qed.

(** ** Refuted for solve with a limit: main counts every job against MaxIt, the serial loop
    corrections only. With MaxIt = 1 and three points asked for, main stops after the first
    initiation (two points) and the serial loop computes all three and one correction. *)
Theorem C94_limit_refuted : exists c m0 mp ms dp ds,
  let st := exSettings true 1 3 in
  prepared st c /\ (forall n j, wellPosed j -> acceptable j (calmWork n j)) /\
  startMain st [] 2 c = Ok m0 /\ oneWorker st calmWork m0 mp /\ mn_running mp = [] /\
  serialLoop st calmWork (fun _ => st_newLength st) 10 (begun c) = Ok ms /\
  mn_data mp = [dp] /\ mn_data ms = [ds] /\ times dp = [0; 1] /\ times ds = [0; 1; 2; 3] /\ length (mn_done ms) = 3%nat.
Proof.
  do 6 eexists. cbv zeta. split.
  { split; [eexists; eexists; reflexivity|]. exists 7%nat, 1. reach. }
  split; [exact calm_acceptable|]. split; [reach|]. split.
  { eapply ow_round; [left; reflexivity|reach|]. apply ow_end. }
  split; [reflexivity|]. split.
  { eapply loop_job; [reflexivity|reach|]. eapply loop_job; [reflexivity|reach|]. eapply loop_job; [reflexivity|reach|].
    apply loop_end. reflexivity. }
  split; [reflexivity|]. split; [reflexivity|]. split; [reach|]. split; [reach|]. reflexivity.
Qed.
Print Assumptions C94_limit_refuted.

(** ** The length of a new branch on one process is that of the solver after the job *)
Theorem C94_serial_new_branch : forall (sol : Type) (st : settings sol) work newLen m countIt m',
  serialJob st work newLen m countIt = Ok m' -> (length (mn_data m) < length (mn_data m'))%nat ->
  exists n, nth_error (mn_data m') (length (mn_data m)) = Some n /\ getLength n = newLen (length (mn_done m)).
Proof.
  intros sol st work newLen [c it nj ws K run sent dn] countIt m' H HL. unfold serialJob in H.
  cbn [mn_data mn_it mn_njobs mn_workers mn_K mn_running mn_sent mn_done] in *. rewrite dispatch_eq in H.
  destruct (dispatched st c) as [[c' j]|] eqn:Ed; [|discriminate]. cbn [rbind mn_running] in H.
  assert (EL : length c' = length c).
  { unfold dispatched in Ed.
    destruct (getFirstNonEmptyBranch c) as [b|]; [|discriminate]. cbn [rbind] in Ed.
    destruct (branch c b) as [d|]; [|discriminate]. cbn [rbind] in Ed.
    destruct (pop d) as [[d1 [[[id dt] start] prev]]|]; [|discriminate]. cbn [rbind] in Ed.
    destruct (jobLevel d1 id) as [d2 level]. destruct (if st_solve st && _ then _ else _) as [[d3 info]|]; [|discriminate].
    injection Ed as <- _. apply APALMSched.setBranch_length. }
  set (l := newLen (length dn)) in *. set (st' := withNewLength st l) in *.
  destruct (run ++ [(0%nat, j)]) as [|[w j'] r] eqn:Er; [discriminate|].
  unfold receive in H. cbn [mn_data mn_it mn_njobs mn_workers mn_K mn_running mn_sent mn_done runningJob nfind] in H.
  rewrite Nat.eqb_refl in H.
  destruct (branch c' (j_branch j')) as [d|] eqn:Eb; [|discriminate]. cbn [rbind] in H.
  destruct (if st_solve st' then _ else _) as [d1 level].
  set (a := work (length dn) j') in *. clearbody a.
  assert (Q : exists K', match a with
       | AInit dist ss bif =>
           if (level =? 0)%Z then receiveInit st' (setBranch c' (j_branch j') d1) K (j_branch j') (j_ID j') dist ss bif else Fail EUndef
       | ACorr ds ss up lo =>
           if (level =? 0)%Z then Fail EUndef
           else do c <- receiveCorr (setBranch c' (j_branch j') d1) (j_branch j') (j_ID j') ds ss up lo; Ok (c, K)
       end = Ok (mn_data m', K')).
  { destruct a.
    all: destruct (level =? 0)%Z; try discriminate.
    - destruct (receiveCorr _ _ _ _ _ _ _) as [c2|]; [|discriminate]. cbn [rbind] in *. injection H as <-. eexists. reflexivity.
    - destruct (receiveInit _ _ _ _ _ _ _ _) as [[c2 K2]|]; [|discriminate]. cbn [rbind] in *. injection H as <-. eexists. reflexivity. }
  clear H. destruct Q as (K' & Q). set (c1 := setBranch c' (j_branch j') d1) in *.
  assert (EL1 : length c1 = length c) by (unfold c1; rewrite APALMSched.setBranch_length; exact EL).
  rewrite <- EL1 in *. clearbody c1. destruct a; destruct (level =? 0)%Z; try discriminate.
  - unfold receiveCorr in Q. destruct (branch c1 _); [|discriminate]. cbn [rbind] in Q. destruct (submit _ _ _ _ _ _); [|discriminate].
    cbn [rbind] in Q. injection Q as Q _. rewrite <- Q, APALMSched.setBranch_length in HL. lia.
  - unfold receiveInit in Q. destruct (branch c1 _); [|discriminate]. cbn [rbind] in Q. destruct (jobStartTime _ _) as [d2 t0].
    destruct solutions as [|s0 tl]; [discriminate|]. cbn [rbind] in Q. destruct (appendData _ _ _ _) as [d3|]; [|discriminate]. cbn [rbind] in Q.
    destruct (readK K _) as [kk|]; [|discriminate]. cbn [rbind] in Q.
    destruct (kk <? st_Nsteps st' - 1)%Z.
    2:{ injection Q as Q _. rewrite <- Q, APALMSched.setBranch_length in HL. lia. }
    destruct bifurcation; cbn [negb] in Q.
    + destruct tl as [|s1 [|]]; try discriminate. cbn [cAdd] in Q. destruct (addStartPoint _ _ _ _) as [dn'|]; [|discriminate].
      cbn [rbind] in Q. injection Q as Q _. rewrite <- Q. eexists. split.
      * rewrite APALMSched.setBranch_length. apply APALMSched.setBranch_same. rewrite app_length, APALMSched.setBranch_length. cbn. lia.
      * reflexivity.
    + destruct tl; [|discriminate]. destruct (appendPoint _ _) as [d4|]; [|discriminate]. cbn [rbind] in Q. injection Q as Q _.
      rewrite <- Q, APALMSched.setBranch_length in HL. lia.
Qed.
Print Assumptions C94_serial_new_branch.

(** ** Refuted for solve with a bifurcation: after the same first job the new branch of main
    has the length of main's own solver, that of the serial driver the length of the solver
    that has done the job. *)
Theorem C94_length_refuted : exists c m0 mp ms dp ds,
  let st := exSettings true 5 3 in
  prepared st c /\ (forall n j, wellPosed j -> acceptable j (forkWork n j)) /\
  startMain st [] 2 c = Ok m0 /\ oneWorker st forkWork m0 mp /\ length (mn_done mp) = 1%nat /\
  serialJob st forkWork (fun _ => 2) (begun c) false = Ok ms /\
  nth_error (mn_data mp) 1 = Some dp /\ nth_error (mn_data ms) 1 = Some ds /\ sols dp = [5%nat] /\ sols ds = [5%nat] /\
  getLength dp = st_newLength st /\ getLength ds = 2.
Proof.
  do 6 eexists. cbv zeta. split.
  { split; [eexists; eexists; reflexivity|]. exists 7%nat, 1. reach. }
  split; [exact fork_acceptable|]. split; [reach|]. split.
  { eapply ow_round; [left; reflexivity|reach|]. apply ow_end. }
  split; [reflexivity|]. split; [reach|]. split; [reflexivity|]. split; [reflexivity|]. split; [reach|]. split; [reach|]. split; reflexivity.
Qed.
Print Assumptions C94_length_refuted.

(** ** Examples: with corrections that meet the tolerance, both drivers end with nothing left *)
Definition quietWork (n : nat) (j : job nat) : answer nat :=
  match j_info j with JInit _ => AInit 1 [n] false | JCorr _ _ => ACorr [j_dt j; 1/100] [n] (j_dt j + 1/100) (j_dt j) end.
Example C94_solve_example : exists c m0 mp ms,
  let st := exSettings true 5 2 in
  prepared st c /\ serialLoop st quietWork (fun _ => st_newLength st) 5 (begun c) = Ok ms /\
  startMain st [] 2 c = Ok m0 /\ oneWorker st quietWork m0 mp /\ mn_running mp = [] /\
  (forall b d, nth_error (mn_data mp) b = Some d -> waiting d = []) /\ length (mn_done mp) = 2%nat.
Proof.
  do 4 eexists. cbv zeta. split.
  { split; [eexists; eexists; reflexivity|]. exists 7%nat, 1. reach. }
  split.
  { eapply loop_job; [reflexivity|reach|]. eapply loop_job; [reflexivity|reach|]. apply loop_end. reflexivity. }
  split; [reach|]. split.
  { eapply ow_round; [left; reflexivity|reach|]. eapply ow_round; [left; reflexivity|reach|]. apply ow_end. }
  split; [reflexivity|]. split; [|reflexivity].
  intros [|[|b]] d H; try discriminate. injection H as <-. reflexivity.
Qed.
(** two segments wait, both are corrected *)
Example C94_parallelSolve_example : exists d ms,
  let st := exSettings false 5 0 in
  initWith (st_dataEmpty st) [0; 1; 2] [10; 11; 12]%nat = Ok d /\ prepared st [d] /\
  serialLoop st quietWork INR 5 (begun [d]) = Ok ms /\ length (mn_done ms) = 2%nat.
Proof.
  assert (P : forall d, initWith (newData 3 (1/10)) [0; 1; 2] [10; 11; 12]%nat = Ok d -> prepared (exSettings false 5 0) [d]).
  { intros d E. destruct ex_start as (d0 & E0 & Hc & W & Ho & Hw). rewrite E in E0. injection E0 as <-.
    split; [eexists; eexists; reflexivity|]. cbn. constructor; [|constructor]. split; auto.
    exists 3%Z, (1/10), d, []. split; [auto|constructor]. }
  assert (E : exists d ms, initWith (newData 3 (1/10)) [0; 1; 2] [10; 11; 12]%nat = Ok d /\
    serialLoop (exSettings false 5 0) quietWork INR 5 (begun [d]) = Ok ms /\ length (mn_done ms) = 2%nat).
  { do 2 eexists. split; [reach|]. split; [|].
    - eapply loop_job; [reflexivity|reach|]. eapply loop_job; [reflexivity|reach|]. apply loop_end. reflexivity.
    - reflexivity. }
  destruct E as (d & ms & E1 & E2 & E3). exists d, ms. cbv zeta. auto.
Qed.
