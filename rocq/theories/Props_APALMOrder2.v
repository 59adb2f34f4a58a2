(** C97, on one process and on the network. *)
From Verif Require Import Prelude APALMData APALMDataProofs APALMDataInv APALMSpec APALMHist APALMDataEx APALMDriver APALMSched APALMExec APALMOrder APALMOrderExec
  Props_APALMDriver Props_APALMWorker Props_APALMSolver Props_APALMSerial MPI MPINet MPIPhase Props_MPI MPIMain MPINetN MPIMainProofs Props_MPIMain Props_APALMOrder.
From Coq Require Import Permutation Lra.
Local Open Scope R_scope.

(** A run with one worker is one of the executions. *)
Lemma one_execution {sol} (work : Z -> R -> sol -> sol -> sol -> list R * list sol * R * R) (st : settings sol) c m0 : st_solve st = false -> covers work -> prepared st c ->
  startMain st [] 2 c = Ok m0 -> forall m mp, oneWorker st (fun _ j => given work j) m mp ->
  forall tr, execution st m0 tr m -> Forall (byWork work) tr -> exists tr', execution st m0 tr' mp /\ Forall (byWork work) tr'.
Proof.
  intros S Hc Hp H0 m mp HO. induction HO as [m|m j m1 m' Hin HR HO IH]; intros tr HX HB; [eauto|].
  pose proof (execution_inv st False 2 c m0 tr m Hp H0 HX ltac:(tauto)) as [C _ _ _ _ _].
  destruct (given_ok work st S Hc m 1%nat j C Hin) as [A B]. apply (IH (tr ++ [(1%nat, j, given work j)])); [econstructor; eauto|].
  apply Forall_app. auto.
Qed.

(** The serial driver exports what the parallel driver exports, whatever the number of processes and the order of the answers. *)
Theorem C97_serial_partial {sol} (work : Z -> R -> sol -> sol -> sol -> list R * list sol * R * R) (st st' : settings sol) c P newLen fuel ms m0 tr m :
  st_solve st = false -> st_solve st' = false -> prepared st c -> prepared st' c -> covers work ->
  serialLoop st (fun _ j => given work j) newLen fuel (begun c) = Ok ms -> cEmpty (mn_data ms) = true ->
  startMain st' [] P c = Ok m0 -> execution st' m0 tr m -> Forall (byWork work) tr -> complete m ->
  sameCurves (mn_data ms) (mn_data m).
Proof.
  intros S S' Hp Hp' Hc HL HE H0 HX HB HC. destruct (C94_parallelSolve sol st _ newLen c fuel ms S HL) as [(k0 & mp & K0 & O & R) H].
  destruct (H k0 mp K0 O R) as (ED & _). rewrite <- ED in HE |- *.
  destruct (one_execution work st c k0 S Hc Hp K0 k0 mp O [] (ex_nil _ _) ltac:(constructor)) as (tr' & X & B).
  exact (C97_order_partial work st st' c 2 P k0 m0 tr' tr mp m S S' Hp Hp' K0 X B (conj R HE) H0 HX HB HC).
Qed.
Print Assumptions C97_serial_partial.

Lemma three_enough {sol} (a b c : sol) d0 n : initWith (newData 3 (1/10)) [0; 1; 2] [a; b; c] = Ok d0 ->
  list_sum (map (fun d => list_sum (map (fun e => W n (left_levels (d_maxLevel d) (seg_lev e))) (waiting d))) [d0]) = (2 * W n (left_levels 3 1))%nat.
Proof.
  intros E0. assert (Hi : incr [0; 1; 2]).
  { apply incr_cons. split; [apply incr_cons; split; [apply incr_one|]|]; [intros y [<-|[]]; lra|intros y [<-|[<-|[]]]; lra]. }
  destruct (created_data_inv 3 (1/10) [0;1;2] [a;b;c] d0 Hi eq_refl E0) as (q & I0 & Et & Es & Pl & O1 & O2 & O3 & O4 & O5 & Epp).
  destruct q as [|p0 [|p1 [|p2 [|]]]]; try discriminate. unfold waiting. cbn [map list_sum fold_right].
  rewrite O5. replace (d_maxLevel d0) with 3%Z by (rewrite (proj1 (inv_opt _ _ I0)); congruence). cbn [consecutive map px fst snd seg_lev list_sum fold_right]. unfold list_sum. cbn [fold_right]. change (Z.of_nat 1) with 1%Z. lia.
Qed.
Lemma given_acceptable {sol} (work : Z -> R -> sol -> sol -> sol -> list R * list sol * R * R) j : covers work -> wellPosed j -> acceptable j (given work j).
Proof.
  intros Hc HW. unfold wellPosed, acceptable, given in *. destruct (j_info j) as [t|iv r]; [split; [lra|reflexivity]|].
  specialize (Hc (j_level j) (j_dt j) (j_start j) (j_prev j) r HW). destruct (work _ _ _ _ _) as [[[ds ss] up] lo]. exact Hc.
Qed.
Lemma half_few (tr : list (nat * job nat * answer nat)) : Forall (byWork half) tr -> Forall (fun x => match snd x with ACorr _ ss _ _ => (length ss <= 1)%nat | _ => True end) tr.
Proof.
  apply Forall_impl. intros [[w j] a] H. cbn in *. destruct (j_info j); [destruct H|]. destruct a; [|exact I]. unfold half in H. injection H as _ <- _ _. cbn. lia.
Qed.
(** serial and parallel runs with the same corrections: the first ends, and it is the one of the second *)
Example C97_serial_example P : (2 <= P)%nat -> exists (d0 : data nat) ms m0 tr m, let st := mkSettings false 100 0 1 1 (newData 3 (1/10)) in
  prepared st [d0] /\ serialLoop st (fun _ j => given half j) (fun _ => 1) 100 (begun [d0]) = Ok ms /\ cEmpty (mn_data ms) = true /\
  startMain st [] P [d0] = Ok m0 /\ execution st m0 tr m /\ Forall (byWork half) tr /\ complete m /\ sameCurves (mn_data ms) (mn_data m).
Proof.
  intros HP. destruct (three_points 10%nat 20%nat 30%nat) as (d0 & m00 & j1 & j2 & E0 & Hp' & _).
  set (st := mkSettings false 100 0 1 1 (newData 3 (1/10))). assert (Hp : prepared st [d0]) by exact Hp'. clear Hp'.
  assert (N : (list_sum (map (fun d => list_sum (map (fun e => W 1 (left_levels (d_maxLevel d) (seg_lev e))) (waiting d))) [d0]) < st_maxIt st)%nat).
  { rewrite (three_enough _ _ _ d0 1 E0). apply Nat.ltb_lt. vm_compute. reflexivity. }
  destruct (C15_serial_parallelSolve nat st (fun _ j => given half j) (fun _ => 1) [d0] eq_refl Hp) as (ms & L & _).
  { intros _ j. apply given_acceptable, half_covers. }
  destruct (C94_parallelSolve nat st (fun _ j => given half j) (fun _ => 1) [d0] _ ms eq_refl L) as [(k0 & mp & K0 & O & R) H].
  destruct (H k0 mp K0 O R) as (ED & _).
  destruct (one_execution half st [d0] k0 eq_refl half_covers Hp K0 k0 mp O [] (ex_nil _ _) ltac:(constructor)) as (tr' & X & B).
  pose proof (C97_ended_complete st [d0] 2 k0 tr' mp 1 eq_refl Hp ltac:(lia) K0 X (half_few _ B) N R) as [_ CE]. rewrite ED in CE.
  destruct (start_ok st True P [d0] Hp) as (m0 & Hm0 & _).
  destruct (run_on half st eq_refl half_covers P [d0] m0 Hp Hm0 100 [] m0 (ex_nil _ _) (Forall_nil _) ltac:(cbn; lia)) as (tr & m & X1 & X2 & X3). cbn [app] in X1, X2.
  pose proof (C97_ended_complete st [d0] P m0 tr m 1 eq_refl Hp HP Hm0 X1 (half_few _ X2) N X3) as CC.
  exists d0, ms, m0, tr, m. cbv zeta. split; [exact Hp|]. split; [exact L|]. split; [exact CE|]. split; [exact Hm0|]. split; [exact X1|]. split; [exact X2|]. split; [exact CC|].
  exact (C97_serial_partial half st st [d0] P (fun _ => 1) 100 ms m0 tr m eq_refl eq_refl Hp Hp half_covers L CE Hm0 X1 X2 CC).
Qed.

(** the answers do not depend on the state of the solver *)
Definition stateless {X} (correction : X -> njob -> X * (list R * list solution * R * R)) (work : Z -> R -> solution -> solution -> solution -> list R * list solution * R * R) : Prop :=
  forall x j iv r, j_info j = JCorr iv r -> snd (correction x j) = work (j_level j) (j_dt j) (j_start j) (j_prev j) r.
Lemma computed_byWork {X} (st : settings solution) initiation (correction : X -> njob -> X * (list R * list solution * R * R)) work x0 P c m0 : st_solve st = false -> prepared st c ->
  startMain st [] P c = Ok m0 -> stateless correction work ->
  forall tr x, computed initiation correction x0 tr x -> forall m, execution st m0 tr m -> Forall (byWork work) tr.
Proof.
  intros S Hp H0 HS tr x HC. induction HC as [|tr x w j x' a HC IH E]; intros m HX; [constructor|].
  inversion HX as [|tr1 m1 w1 j1 a1 m2 HX1 Hin Ha HR Q1 Q2]; [destruct tr; discriminate|]. apply app_inj_tail in Q1 as [-> Q3]. injection Q3 as -> -> ->. subst m2.
  apply Forall_app. split; [exact (IH _ HX1)|]. constructor; [|constructor].
  pose proof (execution_inv st False P c m0 tr m1 Hp H0 HX1 ltac:(tauto)) as [C _ _ _ _ _].
  pose proof (ci_kinds _ _ _ C _ _ Hin) as K. unfold kind_ok in K. unfold byWork. unfold compute in E.
  destruct (j_info j) as [t|iv r] eqn:Ei; [rewrite S in K; destruct K; discriminate|].
  pose proof (HS (x w) j iv r Ei) as Q. destruct (correction (x w) j) as [y [[[ds ss] up] lo]]. cbn [snd] in Q. injection E as <- <-. rewrite <- Q. reflexivity.
Qed.
(** no correction gives more than [n] solutions *)
Definition fewAnswers (n : nat) (work : Z -> R -> solution -> solution -> solution -> list R * list solution * R * R) : Prop :=
  forall lev dt s p r, (length (snd (fst (fst (work lev dt s p r)))) <= n)%nat.
Definition enough (n : nat) (c : container solution) (maxIt : nat) : Prop :=
  (list_sum (map (fun d => list_sum (map (fun e => W n (left_levels (d_maxLevel d) (seg_lev e))) (waiting d))) c) < maxIt)%nat.

(** Any two runs of all processes on the network, with different numbers of processes, different solvers in different states, network
    and scheduling, end with the same curves on the main process. *)
Theorem C97_network_partial {X Y} eager eager' (st st' : settings solution) P P' c
    initiation (correction : X -> njob -> X * (list R * list solution * R * R)) fl fn Inv x0
    initiation' (correction' : Y -> njob -> Y * (list R * list solution * R * R)) fl' fn' Inv' y0 work n k s k' s' :
  st_solve st = false -> st_solve st' = false -> prepared st c -> prepared st' c -> (2 <= P)%nat -> (2 <= P')%nat ->
  worksWell initiation correction fl fn Inv -> (forall w, Inv (x0 w)) -> stateless correction work ->
  worksWell initiation' correction' fl' fn' Inv' -> (forall w, Inv' (y0 w)) -> stateless correction' work ->
  fewAnswers n work -> enough n c (st_maxIt st) -> enough n c (st_maxIt st') ->
  nruns eager k (system st P c initiation correction fl fn x0) s -> stuck eager s ->
  nruns eager' k' (system st' P' c initiation' correction' fl' fn' y0) s' -> stuck eager' s' ->
  exists v v', n_main s = MRet (Ok v) /\ n_main s' = MRet (Ok v') /\ sameCurves (v_data v) (v_data v').
Proof.
  intros S S' Hp Hp' HP HP' HW HI HS HW' HI' HS' HF HN HN' R U R' U'.
  assert (FA : forall tr, Forall (byWork work) tr -> Forall (fun x => match snd x with ACorr _ ss _ _ => (length ss <= n)%nat | _ => True end) tr).
  { intros tr. apply Forall_impl. intros [[w j] a]. unfold byWork. cbn [snd]. destruct (j_info j) as [|iv r]; [destruct a; tauto|]. destruct a as [ds ss up lo|]; [|trivial].
    intros E. specialize (HF (j_level j) (j_dt j) (j_start j) (j_prev j) r). rewrite E in HF. exact HF. }
  destruct (C96_network eager st P c initiation correction fl fn Inv x0 Hp HW HI) as (m0 & H0 & _ & _ & H & _).
  destruct (H k s R U) as (tr & m & x & HX & HC & HR & HA & _).
  destruct (C96_network eager' st' P' c initiation' correction' fl' fn' Inv' y0 Hp' HW' HI') as (m0' & H0' & _ & _ & H' & _).
  destruct (H' k' s' R' U') as (tr' & m' & x' & HX' & HC' & HR' & HA' & _).
  pose proof (computed_byWork st initiation correction work x0 P c m0 S Hp H0 HS tr x HC m HX) as B.
  pose proof (computed_byWork st' initiation' correction' work y0 P' c m0' S' Hp' H0' HS' tr' x' HC' m' HX') as B'.
  pose proof (C97_ended_complete st c P m0 tr m n S Hp HP H0 HX (FA _ B) HN HR) as CC.
  pose proof (C97_ended_complete st' c P' m0' tr' m' n S' Hp' HP' H0' HX' (FA _ B') HN' HR') as CC'.
  do 2 eexists. split; [exact HA|]. split; [exact HA'|]. cbn [v_data].
  exact (C97_order_partial work st st' c P P' m0 m0' tr tr' m m' S S' Hp Hp' H0 HX B CC H0' HX' B' CC').
Qed.
Print Assumptions C97_network_partial.

(** Solvers that count their jobs, and put the sum of the loads between two points. *)
Definition sumWork (lev : Z) (dt : R) (s p r : solution) : list R * list solution * R * R := ([dt; 1], [(fst s, snd s + snd r)], 0, 0).
Definition sumCorr (n : nat) (j : njob) : nat * (list R * list solution * R * R) :=
  (S n, match j_info j with JCorr _ r => sumWork (j_level j) (j_dt j) (j_start j) (j_prev j) r | JInit _ => ([], [], 0, 0) end).
Lemma sum_well : worksWell countInit sumCorr (fun _ _ k => k) (fun _ _ k => k) (fun _ => True).
Proof.
  intros n j _ HW. pose proof (count_well n j I HW) as K. unfold wellPosed, acceptable, sumCorr, sumWork in *. destruct (j_info j) as [t|iv r]; [exact K|].
  split; [exact I|]. split; [|left; auto]. split; [reflexivity|]. split; [repeat constructor; lra|]. cbn [removelast].
  replace (j_dt j - Rsum [j_dt j]) with 0 by (unfold Rsum; cbn [fold_right fold_left]; lra). unfold Rdiv at 1. rewrite Rmult_0_l. apply Rdiv_lt_0_compat; [lra|apply pow_lt; lra].
Qed.
Example C97_network_example eager eager' P P' : (2 <= P)%nat -> (2 <= P')%nat -> exists d0, let st := mkSettings false 100 0 1 1 (newData 3 (1/10)) in
  let s0 := system st P [d0] countInit sumCorr (fun _ _ k => k) (fun _ _ k => k) (fun _ => 0%nat) in
  let s0' := system st P' [d0] countInit sumCorr (fun _ _ k => k) (fun _ _ k => k) (fun w => w) in
  (exists k s, nruns eager k s0 s /\ stuck eager s) /\ (exists k s, nruns eager' k s0' s /\ stuck eager' s) /\
  forall k s k' s', nruns eager k s0 s -> stuck eager s -> nruns eager' k' s0' s' -> stuck eager' s' ->
    exists v v', n_main s = MRet (Ok v) /\ n_main s' = MRet (Ok v') /\ sameCurves (v_data v) (v_data v').
Proof.
  intros HP HP'. destruct (three_points (([0], 0) : solution) ([5], 10) ([9], 18)) as (d0 & m00 & j1 & j2 & E0 & Hp' & _).
  exists d0. cbv zeta. set (st := mkSettings false 100 0 1 1 (newData 3 (1/10))). assert (Hp : prepared st [d0]) by exact Hp'. clear Hp'.
  assert (N : enough 1 [d0] (st_maxIt st)).
  { unfold enough. rewrite (three_enough _ _ _ d0 1 E0). apply Nat.ltb_lt. vm_compute. reflexivity. }
  assert (HS : stateless sumCorr sumWork) by (intros x j iv r E; unfold sumCorr; rewrite E; reflexivity).
  destruct (C96_network eager st P [d0] countInit sumCorr (fun _ _ k => k) (fun _ _ k => k) (fun _ => True) (fun _ => 0%nat) Hp sum_well (fun _ => I)) as (m1 & _ & _ & H2 & _).
  destruct (C96_network eager' st P' [d0] countInit sumCorr (fun _ _ k => k) (fun _ _ k => k) (fun _ => True) (fun w => w) Hp sum_well (fun _ => I)) as (m1' & _ & _ & H2' & _).
  split; [apply (H2 0%nat); constructor|]. split; [apply (H2' 0%nat); constructor|]. intros k s k' s' R U R' U'.
  exact (C97_network_partial eager eager' st st P P' [d0] _ _ _ _ (fun _ => True) _ _ _ _ _ (fun _ => True) _ sumWork 1 k s k' s' eq_refl eq_refl Hp Hp HP HP'
    sum_well (fun _ => I) HS sum_well (fun _ => I) HS ltac:(intros ? ? ? ? ?; cbn; lia) N N R U R' U').
Qed.
