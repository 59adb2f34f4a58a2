(** C97: the result of gsAPALM::parallelSolve (src/gsALMSolvers/gsAPALM.hpp l.215-428) does not depend on the number of processes
    and on the order of the answers. *)
From Verif Require Import Prelude APALMData APALMDataProofs APALMDataInv APALMSpec APALMHist APALMDataEx APALMDriver APALMSched APALMExec APALMOrder APALMOrderExec Props_APALMWorker Props_APALMSolver.
From Coq Require Import Permutation.
Local Open Scope R_scope.

(** all jobs are done and received *)
Definition complete {sol} (m : main sol) : Prop := mn_running m = [] /\ cEmpty (mn_data m) = true.
(** the exported curves *)
Definition sameCurves {sol} (c c' : list (data sol)) : Prop :=
  Forall2 (fun d d' => times d = times d' /\ sols d = sols d' /\ levels d = levels d') c c'.

(** If the answer to a correction depends on its level, length, start, previous solution and reference only, two complete
    executions from the same branches, with any numbers of processes, any orders of the answers and any MaxIt, export the same. *)
Theorem C97_order_partial {sol} (work : Z -> R -> sol -> sol -> sol -> list R * list sol * R * R) (st st' : settings sol) c P P' m0 m0' tr tr' m m' :
  st_solve st = false -> st_solve st' = false -> prepared st c -> prepared st' c ->
  startMain st [] P c = Ok m0 -> execution st m0 tr m -> Forall (byWork work) tr -> complete m ->
  startMain st' [] P' c = Ok m0' -> execution st' m0' tr' m' -> Forall (byWork work) tr' -> complete m' ->
  sameCurves (mn_data m) (mn_data m').
Proof.
  intros S S' Hp Hp' H0 HX HB [E1 E2] H0' HX' HB' [E1' E2'].
  destruct (fates_exist work c) as (F & HF).
  { pose proof (proj2 Hp) as Q. rewrite S in Q. eapply Forall_impl; [|exact Q]. intros d (R & _). apply reachable_inv, R. }
  pose proof (order_exec work st S F P c m0 tr m Hp HF H0 HX HB) as O. pose proof (order_exec work st' S' F P' c m0' tr' m' Hp' HF H0' HX' HB') as O'.
  pose proof (order_end work st F m O E1 E2) as Z. pose proof (order_end work st' F m' O' E1' E2') as Z'.
  destruct O as [_ _ [L FT]], O' as [_ _ [L' FT']]. clear -Z Z' L L' FT FT'. unfold sameCurves. revert Z Z' L L' FT FT'.
  generalize (mn_data m') as l'. generalize (mn_data m) as l. induction F as [|f F IH]; intros [|d l] [|d' l'] Z Z' L L' FT FT'; try discriminate; constructor.
  - exact (fate_end work d d' f (FT 0%nat d f eq_refl eq_refl) (FT' 0%nat d' f eq_refl eq_refl) (Z 0%nat d eq_refl) (Z' 0%nat d' eq_refl)).
  - apply IH; auto; [intros b x Hb; exact (Z (S b) x Hb)|intros b x Hb; exact (Z' (S b) x Hb)|intros b x g Hb; exact (FT (S b) x g Hb)|intros b x g Hb; exact (FT' (S b) x g Hb)].
Qed.
Print Assumptions C97_order_partial.

(** A run that has ended is complete if MaxIt is large enough for the segments that can come up: with at most [n] solutions
    per answer, a segment with [k] levels left leads to W n k jobs at most. *)
Theorem C97_ended_complete {sol} (st : settings sol) c P m0 tr m n :
  st_solve st = false -> prepared st c -> (2 <= P)%nat -> startMain st [] P c = Ok m0 -> execution st m0 tr m ->
  Forall (fun x => match snd x with ACorr _ ss _ _ => (length ss <= n)%nat | _ => True end) tr ->
  (list_sum (map (fun d => list_sum (map (fun e => W n (left_levels (d_maxLevel d) (seg_lev e))) (waiting d))) c) < st_maxIt st)%nat ->
  mn_running m = [] -> complete m.
Proof.
  intros S Hp HP H0 HX HF HM E. split; [exact E|]. pose proof (jobs_bound st S n P c m0 tr m Hp H0 HX HF) as B.
  destruct (execution_inv st False P c m0 tr m Hp H0 HX) as [C Hit Hs Hid HPo HD]; [tauto|].
  assert (T : total n c = list_sum (map (fun d => list_sum (map (fun e => W n (left_levels (d_maxLevel d) (seg_lev e))) (waiting d))) c)).
  { pose proof (proj2 Hp) as Q. rewrite S in Q. unfold total. f_equal. apply map_ext_in. intros d Hd. rewrite Forall_forall in Q. destruct (Q d Hd) as (_ & Q2 & Q3).
    unfold measure. unfold handedOut in Q2. destruct (d_jobs d); [|discriminate]. cbn [map sum fold_right]. rewrite Nat.add_0_r. unfold sum, list_sum, waiting in *. f_equal.
    apply map_ext_in. intros e He. rewrite Forall_forall in Q3. specialize (Q3 e He). unfold correction in Q3. unfold weight, isSeg. destruct (Z.leb_spec 1 (seg_lev e)); [reflexivity|lia]. }
  rewrite <- T in HM. unfold canDispatch in Hid. destruct (cEmpty (mn_data m)); [reflexivity|]. cbn [negb andb] in Hid.
  replace (mn_it m <? st_maxIt st)%nat with true in Hid by (symmetry; apply Nat.ltb_lt; lia). cbn [andb] in Hid.
  destruct (mn_workers m) as [|w ws] eqn:EW; [|discriminate]. exfalso. unfold pool in HPo. rewrite EW, E in HPo. cbn in HPo. apply Permutation_nil in HPo.
  destruct P as [|[|P]]; [lia|lia|discriminate].
Qed.
Print Assumptions C97_ended_complete.

(** ** Executions exist *)
Section Runs.
Context {sol : Type}.
Variable work : Z -> R -> sol -> sol -> sol -> list R * list sol * R * R.
Variable st : settings sol.
Hypothesis Hst : st_solve st = false.
Definition given (j : job sol) : answer sol :=
  match j_info j with JCorr _ r => let '(ds, ss, up, lo) := work (j_level j) (j_dt j) (j_start j) (j_prev j) r in ACorr ds ss up lo | JInit _ => AInit 1 [j_start j] false end.
(** the answers cover the segment *)
Definition covers : Prop := forall lev dt s p r, 0 < dt -> let '(ds, ss, up, lo) := work lev dt s p r in
  length ds = S (length ss) /\ Forall (fun x => 0 < x) ds /\ (dt - Rsum (removelast ds)) / dt < 1 / 10 ^ 12.
Hypothesis Hcov : covers.
Lemma given_ok m w j : CInv st False m -> In (w, j) (mn_running m) -> acceptable j (given j) /\ byWork work (w, j, given j).
Proof.
  intros C H. pose proof (running_dt st False m w j C H) as HW. pose proof (ci_kinds _ _ _ C _ _ H) as K. unfold kind_ok in K. unfold wellPosed in HW.
  unfold acceptable, given, byWork. destruct (j_info j) as [t|iv r]; [rewrite Hst in K; destruct K; discriminate|].
  pose proof (Hcov (j_level j) (j_dt j) (j_start j) (j_prev j) r HW) as A. destruct (work _ _ _ _ _) as [[[ds ss] up] lo]. auto.
Qed.
Lemma run_on P c m0 : prepared st c -> startMain st [] P c = Ok m0 -> forall k tr m, execution st m0 tr m -> Forall (byWork work) tr -> (st_maxIt st - length tr <= k)%nat ->
  exists tr' m', execution st m0 (tr ++ tr') m' /\ Forall (byWork work) (tr ++ tr') /\ mn_running m' = [].
Proof.
  intros Hp H0. induction k as [|k IH]; intros tr m HX HB Hk; destruct (mn_running m) as [|[w j] rs] eqn:ER; try (exists [], m; rewrite app_nil_r; auto; fail).
  - exfalso. destruct (execution_inv st False P c m0 tr m Hp H0 HX) as [C Hit Hs Hid HPo HD]; [tauto|].
    pose proof (Permutation_length (ci_logs _ _ _ C)) as L. rewrite app_length, ER, HD, map_length in L. cbn [length] in L. lia.
  - assert (E : EInv st False P tr m) by (apply (execution_inv st False P c m0); auto; tauto).
    assert (Hin : In (w, j) (mn_running m)) by (rewrite ER; left; auto).
    destruct (given_ok m w j (ei_core _ _ _ _ _ E) Hin) as [A B].
    destruct (round_ok st False P tr m w j (given j) (proj1 Hp) E Hin A) as (m' & R & _); [tauto|].
    destruct (IH (tr ++ [(w, j, given j)]) m') as (tr' & m2 & X1 & X2 & X3).
    + econstructor; eauto.
    + apply Forall_app. auto.
    + rewrite app_length. cbn. lia.
    + exists ((w, j, given j) :: tr'), m2. change (tr ++ (w, j, given j) :: tr') with (tr ++ [(w, j, given j)] ++ tr'). rewrite app_assoc. auto.
Qed.
(** the number of exported points *)
Definition points (c : list (data sol)) : nat := list_sum (map (fun d => length (sols d)) c).
Definition newPts (x : nat * job sol * answer sol) : nat := match snd x with ACorr _ ss _ _ => length ss | _ => 0%nat end.
Lemma points_same (c : list (data sol)) : forall c', length c' = length c -> (forall b d, nth_error c b = Some d -> exists d', nth_error c' b = Some d' /\ sols d' = sols d) -> points c' = points c.
Proof.
  induction c as [|d c IH]; intros [|d' c'] L H; try discriminate; [reflexivity|]. destruct (H 0%nat d eq_refl) as (x & E & Es). injection E as <-.
  unfold points in *. cbn [map list_sum fold_right] in *. rewrite Es. unfold list_sum in *. rewrite (IH c'); [reflexivity|cbn in L; lia|]. intros b y Hb. exact (H (S b) y Hb).
Qed.
Lemma exec_points P c m0 tr m : prepared st c -> startMain st [] P c = Ok m0 -> execution st m0 tr m -> points (mn_data m) = (points c + list_sum (map newPts tr))%nat.
Proof.
  intros Hp H0 HX. induction HX as [|tr m w j a m' HX IH Hin Ha HR].
  - cbn. rewrite Nat.add_0_r. unfold startMain, dispatchAll in H0.
    destruct (dispatchLoop_ok st False (length (seq 1 (P - 1))) (mkMain c 0 0 (seq 1 (P - 1)) [1%Z] [] [] [])) as (m' & js & H1 & _ & _ & _ & _ & _ & _ & _ & _ & H2 & H3);
      [apply prepared_inv; auto; apply seq_NoDup|cbn; lia|cbn; lia|]. cbn [app mn_workers] in H0. rewrite H0 in H1. injection H1 as <-.
    apply points_same; [exact H2|]. intros b d Hb. destruct (H3 b d Hb) as (d' & Q1 & _ & Q2). eauto.
  - rewrite map_app, list_sum_app. cbn [map list_sum fold_right].
    assert (E : EInv st False P tr m) by (apply (execution_inv st False P c m0); auto; tauto). destruct E as [C Hit Hs Hid HPo HD].
    pose proof (ci_kinds _ _ _ C _ _ Hin) as K. unfold kind_ok in K. unfold acceptable in Ha. destruct (j_info j) as [t|iv r] eqn:Ei; [rewrite Hst in K; destruct K; discriminate|].
    destruct a as [ds ss up lo|]; [|destruct Ha]. destruct Ha as (A1 & A2 & A3).
    destruct (receive_corr_ok st False m w j iv r ds ss up lo C Hin Ei A1 A2 A3) as (m1 & R1 & C1 & EI1 & _ & ER & _ & _ & _ & EL & _ & EO & d & d' & Ed & Ed' & HE & _).
    unfold round in HR. rewrite R1 in HR. cbn [rbind] in HR. unfold dispatchAll in HR.
    destruct (dispatchLoop_ok st False (length (mn_workers m1)) m1 C1) as (m2 & js & H1 & _ & _ & _ & _ & _ & _ & _ & _ & H2 & H3); [lia|lia|]. rewrite HR in H1. injection H1 as <-.
    rewrite (points_same (mn_data m1) (mn_data m')); [|exact H2|intros b x Hb; destruct (H3 b x Hb) as (y & Q1 & _ & Q2); eauto].
    assert (ED : mn_data m1 = setBranch (mn_data m) (j_branch j) d').
    { assert (Hbl : (j_branch j < length (mn_data m))%nat) by (apply nth_error_Some; congruence). apply nth_error_ext. intros b.
      destruct (Nat.eq_dec (j_branch j) b) as [<-|Hne]; [rewrite setBranch_same by auto; exact Ed'|rewrite setBranch_other by auto; apply EO; auto]. }
    pose proof (ci_branches _ _ _ C _ d Ed) as BO. destruct (bo_hist _ _ _ _ _ BO) as (h & Hh & Hhj).
    destruct (reachable_inv d (bhist_reachable _ _ Hh)) as (q & I).
    destruct (bo_run _ _ _ _ _ BO w j Hin eq_refl) as (e & Ha & El). cbn [exec] in HE. destruct (submit d (j_ID j) ds ss up lo) as [d1|] eqn:Hs1; [|discriminate]. cbn [rbind] in HE. injection HE as <-.
    destruct (submit_export d q (j_ID j) e ds ss up lo d1 I Ha ltac:(unfold correction; lia) ltac:(split; auto) Hs1) as (k & tl & th & _ & _ & Hk & Hsol & _).
    assert (Ls : length (sols (finishJob d1 (j_ID j))) = (length (sols d) + length ss)%nat).
    { destruct (complete_effect d q (j_ID j) e ds ss up lo d1 I Ha ltac:(unfold correction; lia) ltac:(split; auto) Hs1) as ((q' & I') & _).
      pose proof (inv_rep _ _ I') as HR'. assert (HR1 : Rep d1 q') by exact HR'. rewrite (sols_eq _ _ HR'), <- (sols_eq _ _ HR1). rewrite Hsol, !app_length. rewrite <- (firstn_skipn (S k) (sols d)) at 3. rewrite app_length. lia. }
    assert (G : points (mn_data m1) = (points (mn_data m) + length ss)%nat).
    { rewrite ED. unfold points. revert Ls Ed. generalize (finishJob d1 (j_ID j)) as dd. generalize (j_branch j) as b. generalize (mn_data m) as l.
      clear. induction l as [|x l IH]; intros [|b] dd Ls Ed; try discriminate; cbn in Ed.
      - injection Ed as ->. cbn [setBranch map list_sum fold_right]. rewrite Ls. lia.
      - specialize (IH b dd Ls Ed). cbn [setBranch map list_sum fold_right] in *. unfold list_sum in *. lia. }
    rewrite G, IH. change (newPts (w, j, ACorr ds ss up lo)) with (length ss). unfold list_sum. lia.
Qed.
(** the last rounds: nothing more is sent *)
Lemma last_round P c m0 tr m w j : prepared st c -> startMain st [] P c = Ok m0 -> execution st m0 tr m -> mn_it m = st_maxIt st -> In (w, j) (mn_running m) ->
  exists m', execution st m0 (tr ++ [(w, j, given j)]) m' /\ byWork work (w, j, given j) /\ mn_it m' = st_maxIt st /\ mn_running m' = dropRunning w (mn_running m).
Proof.
  intros Hp H0 HX EI Hin. assert (E : EInv st False P tr m) by (apply (execution_inv st False P c m0); auto; tauto). destruct E as [C Hit Hs Hid HPo HD].
  destruct (given_ok m w j C Hin) as [A B]. destruct (receive_ok st False m w j (given j) (proj1 Hp) C Hin A ltac:(tauto)) as (m1 & R1 & C1 & EI1 & _ & ER & _).
  exists m1. assert (RD : round st m w (given j) = Ok m1).
  { unfold round. rewrite R1. cbn [rbind]. unfold dispatchAll. assert (CD : canDispatch st m1 = false).
    { unfold canDispatch. rewrite EI1, EI, Nat.ltb_irrefl, andb_false_r. reflexivity. }
    destruct (length (mn_workers m1)); cbn [dispatchLoop]; rewrite CD; reflexivity. }
  split; [econstructor; eauto|]. split; [exact B|]. split; [congruence|exact ER].
Qed.
End Runs.

(** complete executions with any numbers of processes: each correction puts one point in its segment *)
Definition half (lev : Z) (dt : R) (s p r : nat) : list R * list nat * R * R := ([dt; 1], [(s + r)%nat], 0, 0).
Lemma half_covers : covers half.
Proof.
  intros lev dt s p r H. unfold half. cbn [length removelast]. split; [reflexivity|]. split; [repeat constructor; lra|].
  replace (dt - Rsum [dt]) with 0 by (unfold Rsum; cbn; ring). unfold Rdiv at 1. rewrite Rmult_0_l. apply Rdiv_lt_0_compat; [lra|apply pow_lt; lra].
Qed.
Example C97_example : exists d0 : data nat, let st := mkSettings false 100 0 1 1 (newData 3 (1/10)) in
  prepared st [d0] /\ forall P, (2 <= P)%nat -> exists m0 tr m, startMain st [] P [d0] = Ok m0 /\ execution st m0 tr m /\ Forall (byWork half) tr /\ complete m.
Proof.
  destruct (three_points 10%nat 20%nat 30%nat) as (d0 & m00 & j1 & j2 & E0 & Hp & _).
  exists d0. cbv zeta. set (st := mkSettings false 100 0 1 1 (newData 3 (1/10))).
  assert (Hp' : prepared st [d0]) by exact Hp. split; [exact Hp'|]. intros P HP.
  destruct (start_ok st True P [d0] Hp') as (m0 & Hm0 & _).
  destruct (run_on half st eq_refl half_covers P [d0] m0 Hp' Hm0 100 [] m0 (ex_nil _ _) (Forall_nil _) ltac:(cbn; lia)) as (tr & m & X1 & X2 & X3). cbn [app] in X1, X2.
  exists m0, tr, m. split; [exact Hm0|]. split; [exact X1|]. split; [exact X2|].
  apply (C97_ended_complete st [d0] P m0 tr m 1 eq_refl Hp' HP Hm0 X1); [| |exact X3].
  - eapply Forall_impl; [|exact X2]. intros [[w j] a] H. cbn in *. destruct (j_info j); [destruct H|]. destruct a; [|exact I]. unfold half in H. injection H as _ <- _ _. cbn. lia.
  - assert (Hi : incr [0; 1; 2]).
    { apply incr_cons. split; [apply incr_cons; split; [apply incr_one|]|]; [intros y [<-|[]]; lra|intros y [<-|[<-|[]]]; lra]. }
    destruct (created_data_inv 3 (1/10) [0;1;2] [10;20;30]%nat d0 Hi eq_refl E0) as (q & I0 & Et & Es & Pl & O1 & O2 & O3 & O4 & O5 & Epp).
    destruct q as [|p0 [|p1 [|p2 [|]]]]; try discriminate. unfold waiting. cbn [map list_sum fold_right].
    rewrite O5. replace (d_maxLevel d0) with 3%Z by (rewrite (proj1 (inv_opt _ _ I0)); congruence). cbn [consecutive map px fst snd seg_lev st_maxIt st]. apply Nat.ltb_lt. vm_compute. reflexivity.
Qed.

(** ** With MaxIt reached *)
(** two workers, three jobs: a correction at level 2 of the first interval puts one point, one of the second interval two *)
Definition lim3 : settings nat := mkSettings false 3 0 1 1 (newData 3 (1/10)).
Definition uneven (lev : Z) (dt : R) (s p r : nat) : list R * list nat * R * R :=
  if (lev =? 1)%Z then ([dt; 1], [r], 0, 0) else if Nat.eqb s 10 then ([dt; 1], [r], 0, 0) else ([dt; 1; 1], [r; r], 0, 0).
Lemma uneven_covers : covers uneven.
Proof.
  intros lev dt s p r H. unfold uneven.
  assert (Z : (dt - Rsum [dt]) / dt < 1 / 10 ^ 12).
  { replace (dt - Rsum [dt]) with 0 by (unfold Rsum; cbn; ring). unfold Rdiv at 1. rewrite Rmult_0_l. apply Rdiv_lt_0_compat; [lra|apply pow_lt; lra]. }
  assert (Z' : (dt - Rsum [dt; 1]) / dt < 1 / 10 ^ 12).
  { apply Rlt_trans with 0; [|apply Rdiv_lt_0_compat; [lra|apply pow_lt; lra]]. replace (dt - Rsum [dt; 1]) with (-1) by (unfold Rsum; cbn; ring).
    unfold Rdiv. pose proof (Rinv_0_lt_compat dt H). lra. }
  destruct (lev =? 1)%Z; [|destruct (Nat.eqb s 10)]; cbn [length removelast]; (split; [reflexivity|]; split; [repeat constructor; lra|assumption]).
Qed.
Lemma third_job : exists (d0 : data nat) m0 m1 m2 j1 j2 k1 k2,
  prepared lim3 [d0] /\ startMain lim3 [] 3 [d0] = Ok m0 /\ mn_running m0 = [(1%nat, j1); (2%nat, j2)] /\
  given uneven j1 = ACorr [1; 1] [20%nat] 0 0 /\ given uneven j2 = ACorr [1; 1] [30%nat] 0 0 /\
  round lim3 m0 1 (given uneven j1) = Ok m1 /\ mn_running m1 = [(2%nat, j2); (1%nat, k1)] /\ mn_it m1 = 3%nat /\ newPts (0%nat, k1, given uneven k1) = 1%nat /\
  round lim3 m0 2 (given uneven j2) = Ok m2 /\ mn_running m2 = [(1%nat, j1); (2%nat, k2)] /\ mn_it m2 = 3%nat /\ newPts (0%nat, k2, given uneven k2) = 2%nat.
Proof.
  assert (A0 : (0 - 0) / (2 - 0) = 0) by field. assert (A1 : (1 - 0) / (2 - 0) = 1/2) by field. assert (A2 : (2 - 0) / (2 - 0) = 1) by field.
  assert (A3 : 2 - 1 = 1) by ring. assert (A4 : 1 - 0 = 1) by ring.
  assert (P : forall d0, initWith (newData 3 (1/10)) [0; 1; 2] [10; 20; 30]%nat = Ok d0 -> prepared lim3 [d0]).
  { destruct (three_points 10%nat 20%nat 30%nat) as (d0 & m00 & _ & _ & E0 & Hp & _). intros d E. rewrite E in E0. injection E0 as <-. exact Hp. }
  do 8 eexists.
  match goal with |- prepared lim3 [?X] /\ _ => assert (E0 : initWith (newData 3 (1/10)) [0; 1; 2] [10; 20; 30]%nat = Ok X) end.
  { unfold initWith, setData. cbn [sortedb]. rdec1. cbn [andb negb]. rdec1. cbn [andb negb]. unfold transform01. cbn [last]. rdec1.
    cbn [map rbind]. rewrite A0, A1, A2. rrun. reflexivity. }
  split; [apply P; exact E0|]. clear P E0.
  split. { rrun. rewrite A3, A4. reflexivity. }
  split. { rrun. reflexivity. }
  split. { rrun. reflexivity. }
  split. { rrun. reflexivity. }
  split. { rrun. reflexivity. }
  split. { cbn [mn_running]. reflexivity. }
  split. { reflexivity. }
  split. { reflexivity. }
  split. { rrun. reflexivity. }
  split. { cbn [mn_running]. reflexivity. }
  split. { reflexivity. }
  reflexivity.
Qed.
Lemma dropRunning_hd {sol} w (j : job sol) l : dropRunning w ((w, j) :: l) = l.
Proof. cbn. rewrite Nat.eqb_refl. reflexivity. Qed.
(** the two orders, both without running jobs in the end *)
Theorem C97_limit_refuted : exists (d0 : data nat) m0 tr tr' m m',
  prepared lim3 [d0] /\ covers uneven /\ startMain lim3 [] 3 [d0] = Ok m0 /\
  execution lim3 m0 tr m /\ Forall (byWork uneven) tr /\ mn_running m = [] /\
  execution lim3 m0 tr' m' /\ Forall (byWork uneven) tr' /\ mn_running m' = [] /\ ~ sameCurves (mn_data m) (mn_data m').
Proof.
  destruct third_job as (d0 & m0 & m1 & m2 & j1 & j2 & k1 & k2 & Hp & H0 & R0 & G1 & G2 & E1 & R1 & I1 & N1 & E2 & R2 & I2 & N2).
  pose proof (execution_inv lim3 False 3 [d0] m0 [] m0 Hp H0 (ex_nil _ _) ltac:(tauto)) as [C0 _ _ _ _ _].
  destruct (given_ok uneven lim3 eq_refl uneven_covers m0 1%nat j1 C0) as [A1 B1]; [rewrite R0; left; auto|].
  destruct (given_ok uneven lim3 eq_refl uneven_covers m0 2%nat j2 C0) as [A2 B2]; [rewrite R0; right; left; auto|].
  assert (X1 : execution lim3 m0 ([] ++ [(1%nat, j1, given uneven j1)]) m1) by (apply (ex_snoc lim3 m0 [] m0); [constructor|rewrite R0; left; auto|exact A1|exact E1]).
  assert (X2 : execution lim3 m0 ([] ++ [(2%nat, j2, given uneven j2)]) m2) by (apply (ex_snoc lim3 m0 [] m0); [constructor|rewrite R0; right; left; auto|exact A2|exact E2]).
  destruct (last_round uneven lim3 eq_refl uneven_covers 3 [d0] m0 _ m1 2%nat j2 Hp H0 X1 I1) as (m3 & X3 & B3 & I3 & R3); [rewrite R1; left; auto|]. rewrite R1, dropRunning_hd in R3.
  destruct (last_round uneven lim3 eq_refl uneven_covers 3 [d0] m0 _ m3 1%nat k1 Hp H0 X3 I3) as (m5 & X5 & B5 & I5 & R5); [rewrite R3; left; auto|]. rewrite R3, dropRunning_hd in R5.
  destruct (last_round uneven lim3 eq_refl uneven_covers 3 [d0] m0 _ m2 1%nat j1 Hp H0 X2 I2) as (m4 & X4 & B4 & I4 & R4); [rewrite R2; left; auto|]. rewrite R2, dropRunning_hd in R4.
  destruct (last_round uneven lim3 eq_refl uneven_covers 3 [d0] m0 _ m4 2%nat k2 Hp H0 X4 I4) as (m6 & X6 & B6 & I6 & R6); [rewrite R4; left; auto|]. rewrite R4, dropRunning_hd in R6.
  exists d0, m0. do 2 eexists. exists m5, m6. split; [exact Hp|]. split; [exact uneven_covers|]. split; [exact H0|]. split; [exact X5|].
  split; [cbn [app]; repeat (constructor; [assumption|]); constructor|]. split; [exact R5|]. split; [exact X6|].
  split; [cbn [app]; repeat (constructor; [assumption|]); constructor|]. split; [exact R6|]. intros S.
  pose proof (exec_points lim3 eq_refl 3 [d0] m0 _ m5 Hp H0 X5) as P5. pose proof (exec_points lim3 eq_refl 3 [d0] m0 _ m6 Hp H0 X6) as P6.
  cbn [app map list_sum fold_right] in P5, P6. unfold newPts in N1, N2, P5, P6. cbn [snd] in N1, N2, P5, P6. rewrite G1, G2, N1 in P5. rewrite G1, G2, N2 in P6. cbn [length] in P5, P6.
  assert (Q : points (mn_data m5) = points (mn_data m6)); [|lia]. clear -S. unfold points. induction S as [|d d' c c' (_ & H & _) S IH]; [reflexivity|]. cbn [map list_sum fold_right] in *. rewrite H. unfold list_sum in *. lia.
Qed.
Print Assumptions C97_limit_refuted.
