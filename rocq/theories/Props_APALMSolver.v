(** Property C90: gsAPALM with the arc-length solvers of this module. The answers of workers
    that use gsALMRiks never stop the main process; with gsALMCrisfield, or after a failed
    factorisation, they can. *)
From Verif Require Import VS Status RunTac ALMBase ALMBaseProofs ALMStep ALMLog ALMPoints ALMRun Props_ALMStep Props_ALMMethods
  APALMData APALMDataProofs APALMDataInv APALMSpec APALMHist APALMDriver APALMSched APALMExec Props_APALMDriver
  APALMWorker APALMWorkerProofs Props_APALMWorker APALMSolver.
Local Open Scope R_scope.

Section Riks.
Context {S : VS} {Mat : Type}.
Variable p : problem S Mat.
Variable o : opts.
Hypothesis Hm : (2 <= o_maxIt o)%nat.
Notation A := (solverALM p o Riks).

(** one step of Riks *)
Lemma solver_step_ok (s : st S Mat) t s' : solverStep p o Riks s = Ok (t, s') -> step p o Riks s = Ret tt s' /\ s_stat s' = t.
Proof.
  unfold solverStep, returned. destruct (step p o Riks s) as [[] s1|]; [|discriminate]. cbn. intros H. injection H as <- <-. auto.
Qed.
Lemma solver_step_guess (s : st S Mat) t s' : solverStep p o Riks s = Ok (t, s') -> s_guess s = None -> s_guess s' = None.
Proof. intros H G. apply solver_step_ok in H as [H _]. pose proof (step_guess p o Riks s G) as Q. rewrite H in Q. exact Q. Qed.
Lemma solver_step_long (s : st S Mat) s' : solverStep p o Riks s = Ok (Success, s') -> s_guess s = None -> 0 <= s_len s ->
  s_len s <= solverDistance p Riks s' (s_U s, s_L s) (s_U s', s_L s').
Proof.
  intros H G Hl. apply solver_step_ok in H as [H E]. destruct (C30_riks_step p o s s' Hm Hl G H E) as (d & D1 & D2).
  unfold solverDistance. cbn [fst snd]. rewrite D1. exact D2.
Qed.
(** distance() is definite after a converged step *)
Lemma riks_definite (s : st S Mat) a b : 0 < s_phi s < 1 -> a <> b -> 0 < solverDistance p Riks s a b.
Proof.
  intros Hp Hne. unfold solverDistance, distance. apply sqrt_lt_R0. rewrite norm_sq.
  set (du := fst b -v fst a). set (dl := snd b - snd a).
  assert (G : du <> v0 \/ dl <> 0).
  { destruct (Req_EM_T dl 0) as [E|E]; [|auto]. left. intros Q. apply Hne. apply vsub_zero_eq in Q.
    destruct a as [a1 a2], b as [b1 b2]. cbn in *. f_equal; [auto|]. unfold dl in E. lra. }
  pose proof (dot_pos S du). pose proof (Rle_0_sqr dl) as Q. unfold Rsqr in Q.
  destruct G as [G|G].
  - assert (0 < dot du du). { destruct (Rle_lt_or_eq_dec _ _ H) as [X|X]; auto. exfalso. apply G, dot_zero. auto. } nra.
  - assert (0 < dl * dl) by nra. nra.
Qed.

(** statuses of steps that are stored only if converged *)
Definition plainStatus {sol} (c : stepCall sol) : Prop := In (sc_status c) [Success; NotConverged; AssemblyError].

Lemma riks_correction_inv opposite fuel n (s : st S Mat) D start prev ref ds ss up lo s' log :
  s_guess s = None -> 0 < D ->
  correction_ A opposite fuel n s D start prev ref = Ok (ds, ss, up, lo, s', log) ->
  s_guess s' = None /\ Forall (fun c => sc_status c = Success -> sc_length c <= sc_dist c) log /\
  (Forall plainStatus log -> 0 < s_phi s' < 1).
Proof.
  intros G HD H. unfold correction_ in H. destruct (Nat.eqb n 0) eqn:En; [discriminate|]. apply Nat.eqb_neq in En.
  match type of H with rbind ?X _ = _ => destruct X as [[[[ds0 ss0] a0] log0]|] eqn:E; [|discriminate] end.
  cbn [rbind] in H. destruct (opposite ref (alm_solution A a0)); [discriminate|].
  destruct (rev ss0) as [|x r] eqn:Er; [discriminate|]. injection H as _ _ _ _ <- <-.
  assert (Hn : 0 < INR n) by (apply lt_0_INR; lia).
  assert (Hq : 0 < D / INR n) by (apply Rdiv_lt_0_compat; auto).
  apply (corrLoop_inv A (solver_laws p o Riks) (fun a : st S Mat => s_guess a = None)
    (fun c => sc_status c = Success -> sc_length c <= sc_dist c)
    (fun t (a : st S Mat) => t = Success -> 0 < s_phi a < 1)) in E; auto; try lia; try lra.
  - destruct E as (E1 & E2 & E3 & _). split; auto. split; auto. intros HF. destruct (E3 ltac:(lia)) as (c & C1 & C2 & C3).
    apply C3. rewrite Forall_forall in HF. specialize (HF c C1). unfold accepted, plainStatus in *.
    destruct HF as [Q|[Q|[Q|[]]]]; rewrite <- Q in C2; auto; discriminate.
  - intros a t a1 Ha Hl Hs. cbn in Hs, Hl. split; [exact (solver_step_guess _ _ _ Hs Ha)|]. split.
    + intros ->. apply solver_step_ok in Hs as [Hs Et]. exact (riks_step_phi p o a a1 Hm Ha Hs Et).
    + cbn. intros ->. apply solver_step_long; auto. lra.
Qed.
End Riks.

(** ** C90 *)
(** A correction with Riks: every stored step is at least as long as asked for, so that the
    result passes the length check of submit; all distances are positive unless the last
    solution is the reference itself. *)
Theorem C90_riks_correction_partial {S : VS} {Mat} (p : problem S Mat) o opposite fuel n (s : st S Mat) D start prev ref ds ss up lo s' log :
  (2 <= o_maxIt o)%nat -> s_guess s = None -> 0 < D ->
  correction_ (solverALM p o Riks) opposite fuel n s D start prev ref = Ok (ds, ss, up, lo, s', log) ->
  Forall (fun c => In (sc_status c) [Success; NotConverged; AssemblyError]) log ->
  length ds = Datatypes.S (length ss) /\ D <= Rsum (removelast ds) /\ Forall (fun x => 0 < x) (removelast ds) /\
  (last ss start <> ref -> Forall (fun x => 0 < x) ds) /\ s_guess s' = None.
Proof.
  intros Hm G HD H HF. destruct (riks_correction_inv p o Hm _ _ _ _ _ _ _ _ _ _ _ _ _ _ G HD H) as (G' & HP & Hphi).
  assert (Hadv : forall c, In c (filter stored log) -> sc_length c <= sc_dist c).
  { intros c Hc. apply filter_In in Hc as [Hc Hs]. rewrite Forall_forall in HP, HF. apply HP; auto.
    specialize (HF c Hc). unfold stored in Hs. destruct HF as [Q|[Q|[Q|[]]]]; rewrite <- Q in Hs; auto; discriminate. }
  destruct (C19_correction_result_accepted _ _ _ _ _ _ _ _ _ _ _ _ _ _ _ _ (solver_laws p o Riks) HD H Hadv) as (L1 & L2 & _).
  destruct (C18_halving_conserves_length _ _ _ _ _ _ _ _ _ _ _ _ _ _ _ _ (solver_laws p o Riks) HD H)
    as (R1 & _ & _ & _ & _ & _ & _ & R7 & _).
  assert (Ed : removelast ds = map sc_dist (filter stored log)) by (rewrite R7, removelast_last; reflexivity).
  split; [exact L1|]. split; [|split; [exact L2|split; [|exact G']]].
  - rewrite Ed. rewrite <- R1. clear -Hadv. induction (filter stored log) as [|c l IH]; cbn [map]; rewrite ?Rsum_nil, ?Rsum_cons; [lra|].
    pose proof (Hadv c (or_introl eq_refl)). specialize (IH (fun x Hx => Hadv x (or_intror Hx))). lra.
  - intros Hne. rewrite R7. apply Forall_app. split; [rewrite <- Ed; exact L2|]. constructor; [|constructor].
    apply riks_definite; [|exact Hne]. apply Hphi. exact HF.
Qed.
Print Assumptions C90_riks_correction_partial.

(** An initiation with Riks, without search for singular points: the distance is at least the
    length of the step that converged, and this one started from the start solution. *)
Theorem C90_riks_initiation_partial {S : VS} {Mat} (p : problem S Mat) o fuel (s : st S Mat) dL start prev dist ss bif s' log :
  (2 <= o_maxIt o)%nat -> s_guess s = None -> 0 < dL ->
  initiation (solverALM p o Riks) fuel false s dL start prev = Ok (dist, ss, bif, s', log) ->
  bif = false /\ ss = [(s_U s', s_L s')] /\ s_guess s' = None /\
  exists c, In c log /\ sc_status c = Success /\ sc_from c = start /\ 0 < sc_length c <= dist.
Proof.
  intros Hm G HL H. unfold initiation in H.
  match type of H with rbind ?X _ = _ => destruct X as [[a0 log0]|] eqn:E; [|discriminate] end.
  cbn [rbind] in H. injection H as <- <- <- <- <-. split; auto. split; auto.
  set (A := solverALM p o Riks) in *.
  assert (X : forall fuel dL (a : st S Mat) lg a' lg', initLoop A fuel dL start a lg = Ok (a', lg') ->
    s_guess a = None -> 0 < dL -> s_len a = dL -> (s_U a, s_L a) = start ->
    s_guess a' = None /\ exists c, In c lg' /\ sc_status c = Success /\ sc_from c = start /\ sc_to c = (s_U a', s_L a') /\
      0 < sc_length c /\ sc_length c <= sc_dist c /\ sc_dist c = solverDistance p Riks a' start (s_U a', s_L a')).
  { clear -Hm. induction fuel as [|f IH]; intros dL a lg a' lg' H Ga Hl El Es; [discriminate|]. cbn [initLoop] in H.
    unfold call in H. destruct (alm_step A a) as [[t a1]|] eqn:Est; [|discriminate]. cbn [rbind] in H.
    set (c := mkCall (alm_getLength A a) (alm_solution A a) t (alm_solution A a1) (alm_distance A a1 (alm_solution A a) (alm_solution A a1))) in *.
    cbn in Est. pose proof (solver_step_guess p o a t a1 Est Ga) as G1.
    destruct (status_eqb t Success) eqn:Et; cbn [negb] in H.
    - apply status_eqb_true in Et. subst t. cbn in H. injection H as <- <-. split; auto. exists c.
      split; [apply in_or_app; right; left; auto|]. split; auto. split; [exact Es|]. split; [reflexivity|].
      split; [cbn; lra|]. split; [cbn; apply (solver_step_long p o Hm); auto; lra|]. rewrite <- Es. reflexivity.
    - destruct (retry t).
      + apply IH in H; auto.
        * lra.
        * destruct start as [u l]. reflexivity.
      + apply solver_step_ok in Est as [Est E1].
        assert (Hn : s_stat a1 <> Success) by (rewrite E1; intros ->; discriminate).
        destruct (C23_failed_step_keeps_solution p o Riks a a1 (or_introl (conj Est Hn))) as (K1 & K2 & K3 & _).
        apply IH in H; auto.
        * lra.
        * cbn. rewrite K1, K2. exact Es. }
  apply X in E; auto.
  - destruct E as (E1 & c & E2 & E3 & E4 & E5 & E6 & E7 & E8). split; auto. exists c. split; auto. split; auto. split; auto.
    split; auto. cbn. rewrite E8 in E7. exact E7.
  - destruct start as [u l]. reflexivity.
Qed.
Print Assumptions C90_riks_initiation_partial.

(** ** Main and workers together *)
Section Run.
Context {S : VS} {Mat : Type}.
Variable p : problem S Mat.
Variable o : opts.
Variable opposite : S * R -> S * R -> bool.
Variable set : settings (S * R).
Notation job := (job (S * R)).
Notation answer := (answer (S * R)).

(** [riksAnswer s j a s']: a worker whose solver is in the state [s] computes the answer [a]
    to the job [j] and is then in the state [s'] (m_subIntervals = n, m_singularPoint = false).
    Asked of the run: no step fails with another status than NotConverged or AssemblyError,
    the last solution of a correction is not the reference, and initiations are asked for a
    positive length. *)
Definition riksAnswer (s : st S Mat) (j : job) (a : answer) (s' : st S Mat) : Prop :=
  match j_info j, a with
  | JInit _, AInit dist ss bif => 0 < j_dt j /\
      exists fuel log, initiation (solverALM p o Riks) fuel false s (j_dt j) (j_start j) (j_prev j) = Ok (dist, ss, bif, s', log)
  | JCorr _ ref, ACorr ds ss up lo => exists fuel n log,
      correction_ (solverALM p o Riks) opposite fuel n s (j_dt j) (j_start j) (j_prev j) ref = Ok (ds, ss, up, lo, s', log) /\
      Forall (fun c => In (sc_status c) [Success; NotConverged; AssemblyError]) log /\ last ss (j_start j) <> ref
  | _, _ => False
  end.
(** the main process with the solvers of the workers; each of them keeps its state from one
    job to the next *)
Inductive riksRun (m0 : main (S * R)) (x0 : nat -> st S Mat) : list (nat * job * answer) -> main (S * R) -> (nat -> st S Mat) -> Prop :=
| rr_nil : riksRun m0 x0 [] m0 x0
| rr_snoc tr m x w j a s' m' :
    riksRun m0 x0 tr m x -> In (w, j) (mn_running m) -> riksAnswer (x w) j a s' -> round set m w a = Ok m' ->
    riksRun m0 x0 (tr ++ [(w, j, a)]) m' (fun v => if Nat.eqb v w then s' else x v).
End Run.

Lemma riks_acceptable {S : VS} {Mat} (p : problem S Mat) o opposite (s s' : st S Mat) j a :
  (2 <= o_maxIt o)%nat -> s_guess s = None -> wellPosed j -> riksAnswer p o opposite s j a s' ->
  acceptable j a /\ s_guess s' = None.
Proof.
  intros Hm G Hw H. unfold riksAnswer, acceptable, wellPosed in *. destruct (j_info j), a; try contradiction.
  - destruct H as (Hd & fuel & log & H). destruct (C90_riks_initiation_partial p o _ _ _ _ _ _ _ _ _ _ Hm G Hd H) as (-> & -> & G' & c & _ & _ & _ & Hc).
    split; auto. split; [lra|reflexivity].
  - destruct H as (fuel & n & log & H & HF & Hne).
    destruct (C90_riks_correction_partial p o opposite _ _ _ _ _ _ _ _ _ _ _ _ _ Hm G Hw H HF) as (H1 & H2 & H3 & H4 & G').
    split; auto. split; auto. split; auto. apply Rle_lt_trans with 0; [|apply Rdiv_lt_0_compat; [lra|apply pow_lt; lra]].
    apply Rmult_le_reg_r with (j_dt j); auto. unfold Rdiv. rewrite Rmult_assoc, Rinv_l, Rmult_0_l; lra.
Qed.

(** Whatever the order in which workers answer, the main process never fails; all runs are
    executions, so that C14-C17, C20 and C66 hold for them. *)
Theorem C90_riks_main_never_fails_partial {S : VS} {Mat} (p : problem S Mat) o opposite (set : settings (S * R)) c P (x0 : nat -> st S Mat) :
  (2 <= o_maxIt o)%nat -> (forall w, s_guess (x0 w) = None) -> prepared set c ->
  exists m0, startMain set [] P c = Ok m0 /\
  forall tr m x, riksRun p o opposite set m0 x0 tr m x ->
    execution set m0 tr m /\
    forall w j a s', In (w, j) (mn_running m) -> riksAnswer p o opposite (x w) j a s' -> exists m', round set m w a = Ok m'.
Proof.
  intros Hm Hg Hp. destruct (C65_main_never_fails _ set c P Hp) as (m0 & E0 & Hnf). exists m0. split; auto.
  intros tr m x H.
  assert (X : execution set m0 tr m /\ forall w, s_guess (x w) = None).
  { induction H as [|tr m x w j a s' m' H IH Hin Ha Hr]; [split; [constructor|auto]|]. destruct IH as [IH1 IH2].
    pose proof (execution_inv set False P c m0 tr m Hp E0 IH1 ltac:(tauto)) as I.
    pose proof (running_dt set False m w j (ei_core _ _ _ _ _ I) Hin) as Hw.
    destruct (riks_acceptable p o opposite _ _ _ _ Hm (IH2 w) Hw Ha) as [Hacc G'].
    split; [econstructor; eauto|]. intros v. destruct (Nat.eqb v w); auto. }
  destruct X as [X1 X2]. split; auto. intros w j a s' Hin Ha.
  pose proof (execution_inv set False P c m0 tr m Hp E0 X1 ltac:(tauto)) as I.
  pose proof (running_dt set False m w j (ei_core _ _ _ _ _ I) Hin) as Hw.
  destruct (riks_acceptable p o opposite _ _ _ _ Hm (X2 w) Hw Ha) as [Hacc _].
  eapply Hnf; eauto.
Qed.
Print Assumptions C90_riks_main_never_fails_partial.

(** ** Examples for C90 *)
(** parallelSolve on a curve with the points a, b, c at the times 0, 1, 2 and two workers *)
Definition set3 {sol} : settings sol := mkSettings false 5 0 1 1 (newData 3 (1/10)).
Lemma three_points {sol} (a b c : sol) : exists d0 m0 j1 j2,
  initWith (newData 3 (1/10)) [0; 1; 2] [a; b; c] = Ok d0 /\ prepared set3 [d0] /\
  startMain set3 [] 3 [d0] = Ok m0 /\ mn_running m0 = [(1%nat, j1); (2%nat, j2)] /\
  j1 = mkJob 0 0 1 1 a a (JCorr (0, 1) b) /\ j2 = mkJob 0 1 1 1 b a (JCorr (1, 2) c) /\
  forall x y s up lo, x <= 99/100 -> round set3 m0 2 (ACorr [x; y] [s] up lo) = Fail EEnsure.
Proof.
  assert (A0 : (0 - 0) / (2 - 0) = 0) by field. assert (A1 : (1 - 0) / (2 - 0) = 1/2) by field. assert (A2 : (2 - 0) / (2 - 0) = 1) by field.
  assert (A3 : 2 - 1 = 1) by ring. assert (A4 : 1 - 0 = 1) by ring.
  assert (Hi : incr [0; 1; 2]).
  { apply incr_cons. split; [apply incr_cons; split; [apply incr_one|]|].
    - intros y [<-|[]]; lra.
    - intros y [<-|[<-|[]]]; lra. }
  assert (P : forall d0, initWith (newData 3 (1/10)) [0; 1; 2] [a; b; c] = Ok d0 -> prepared set3 [d0]).
  { intros d0 E0. pose proof (cr_data 3 (1/10) [0;1;2] [a;b;c] d0 Hi eq_refl E0) as Hc.
    destruct (created_data_inv 3 (1/10) [0;1;2] [a;b;c] d0 Hi eq_refl E0) as (q & I0 & Et & Es & Pl & O1 & O2 & O3 & O4 & O5 & Epp).
    destruct q as [|p0 [|p1 [|p2 [|]]]]; try discriminate.
    split; [eexists; eexists; reflexivity|]. cbn. constructor; [|constructor]. split.
    - exists 3%Z, (1/10), d0, []. split; [auto|constructor].
    - unfold waiting, handedOut. rewrite O4, O5. cbn. unfold correction. split; auto.
      constructor; [cbn; lia|]. constructor; [cbn; lia|constructor]. }
  do 4 eexists.
  match goal with |- ?X /\ _ => assert (E0 : X) end.
  { unfold initWith, setData. cbn [sortedb]. rdec1. cbn [andb negb]. rdec1. cbn [andb negb]. unfold transform01. cbn [last]. rdec1.
    cbn [map rbind]. rewrite A0, A1, A2. rrun. reflexivity. }
  split; [exact E0|]. split; [apply P; exact E0|]. clear P E0.
  split. { rrun. rewrite A3, A4. reflexivity. }
  split. { rrun. reflexivity. }
  split; [reflexivity|]. split; [reflexivity|]. intros x y s up lo Hx. rrun. reflexivity.
Qed.
(** a correction with one subinterval whose first step is accepted *)
Lemma correction_one {sol} (A : ALM sol) opposite a D start prev ref t a1 :
  alm_step A (alm_setPrevious A prev (alm_setSolution A start (alm_setLength A D a))) = Ok (t, a1) -> retry t = false ->
  let a2 := alm_setLength A D a1 in opposite ref (alm_solution A a2) = false ->
  exists up lo c, correction_ A opposite 1 1 a D start prev ref =
    Ok ([alm_distance A a1 start (alm_solution A a1); alm_distance A a2 (alm_solution A a2) ref], [alm_solution A a1], up, lo, a2, [c]) /\
    sc_status c = t.
Proof.
  intros H Hr a2 Ho. do 3 eexists. split.
  - unfold correction_. cbn [Nat.eqb]. replace (D / INR 1) with D by (cbn; field). cbn [corrLoop Nat.eqb]. unfold call. rewrite H. cbn [rbind].
    rewrite Hr. cbn [negb rbind app corrLoop Nat.eqb]. fold a2. rewrite Ho. cbn [rev app]. reflexivity.
  - reflexivity.
Qed.

Example C90_correction_example : exists ds ss up lo s' log,
  correction_ (solverALM exSpring (exOpts 5) Riks) mirrored 1 1 (exSt VS_R R 1) 1 (0, 0) (0, 0) (5, 10) = Ok (ds, ss, up, lo, s', log) /\
  map sc_status log = [Success] /\ last ss (0, 0) <> (5, 10) /\ s_guess s' = None.
Proof.
  assert (E : exists s, step exSpring (exOpts 5) Riks (setPrevious (0 : VS_R) 0 (setSolution (0 : VS_R) 0 (ALMBase.setLength 1 (exSt VS_R R 1)))) = Ret tt s /\
    s_stat s = Success /\ 0 < s_U s < 2 /\ s_guess s = None).
  { eexists. split; [ev|]. rcbv. repeat split; lra. }
  destruct E as (s & E1 & E2 & E3 & E4).
  destruct (correction_one (solverALM exSpring (exOpts 5) Riks) mirrored (exSt VS_R R 1) 1 (0, 0) (0, 0) (5, 10) Success s) as (up & lo & c & H & Hc).
  - cbn. unfold solverStep, returned. cbn in E1. rewrite E1. cbn. rewrite E2. reflexivity.
  - reflexivity.
  - apply not_mirrored; cbn; lra.
  - do 6 eexists. split; [exact H|]. split; [apply (f_equal (fun t => [t]) Hc)|]. split; [|cbn; exact E4]. cbn. intros Q. injection Q. intros. lra.
Qed.

(** one job of two, answered by the worker that got it *)
Example C90_main_example : exists d0 m0 tr m x, prepared set3 [d0] /\ startMain set3 [] 3 [d0] = Ok m0 /\
  riksRun exSpring (exOpts 5) mirrored set3 m0 (fun _ => exSt VS_R R 1) tr m x /\ length tr = 1%nat.
Proof.
  destruct (three_points ((0, 0) : VS_R * R) (5, 10) (9, 18)) as (d0 & m0 & j1 & j2 & E0 & Hp & Es & Er & Ej & _ & _).
  destruct (C90_riks_main_never_fails_partial exSpring (exOpts 5) mirrored set3 [d0] 3 (fun _ => exSt VS_R R 1) ltac:(cbn; lia) (fun _ => eq_refl) Hp)
    as (m0' & Es' & H). rewrite Es in Es'. injection Es' as <-.
  destruct C90_correction_example as (ds & ss & up & lo & s' & log & H1 & H2 & H3 & H4).
  assert (Ha : riksAnswer exSpring (exOpts 5) mirrored (exSt VS_R R 1) j1 (ACorr ds ss up lo) s').
  { subst j1. cbn. exists 1%nat, 1%nat, log. split; [exact H1|]. split; [|exact H3].
    destruct log as [|c [|]]; try discriminate. injection H2 as H2. constructor; [|constructor]. left. auto. }
  assert (Hin : In (1%nat, j1) (mn_running m0)) by (rewrite Er; left; reflexivity).
  destruct (proj2 (H [] m0 _ (rr_nil _ _ _ _ _ _)) 1%nat j1 _ s' Hin Ha) as (m' & Hr).
  exists d0, m0. do 3 eexists. split; [exact Hp|]. split; [exact Es|]. split; [eapply rr_snoc; [constructor|exact Hin|exact Ha|exact Hr]|reflexivity].
Qed.

Example C90_initiation_example : exists dist ss bif s' log,
  initiation (solverALM exSpring (exOpts 5) Riks) 1 false (exSt VS_R R 1) 1 (0, 0) (0, 0) = Ok (dist, ss, bif, s', log) /\ 1 <= dist.
Proof.
  assert (E : exists s, step exSpring (exOpts 5) Riks (setPrevious (0 : VS_R) 0 (setSolution (0 : VS_R) 0 (ALMBase.setLength 1 (exSt VS_R R 1)))) = Ret tt s /\
    s_stat s = Success).
  { eexists. split; [ev|]. rcbv. reflexivity. }
  destruct E as (s & E1 & E2).
  eassert (H : initiation (solverALM exSpring (exOpts 5) Riks) 1 false (exSt VS_R R 1) 1 (0, 0) (0, 0) = Ok _).
  { unfold initiation. cbn [initLoop]. unfold call. cbn. unfold solverStep, returned. cbn in E1. rewrite E1. cbn. rewrite E2. cbn. reflexivity. }
  do 5 eexists. split; [exact H|].
  destruct (C90_riks_initiation_partial exSpring (exOpts 5) _ (exSt VS_R R 1) _ _ _ _ _ _ _ _ ltac:(cbn; lia) eq_refl Rlt_0_1 H) as (_ & _ & _ & c & [<-|[]] & _ & _ & C).
  cbn in C. apply C.
Qed.

(** ** Crisfield: the converged step of C28_refuted is shorter than asked for, by a tenth; the
    main process stops when it receives the result. *)
Theorem C90_crisfield_refuted : exists d0 m0 j2 ds ss up lo s' log ref,
  prepared set3 [d0] /\ startMain set3 [] 3 [d0] = Ok m0 /\ In (2%nat, j2) (mn_running m0) /\ j_info j2 = JCorr (1, 2) ref /\
  correction_ (solverALM exJump exLoose Crisfield) mirrored 1 1 (exSt VS_R R 1) (j_dt j2) (j_start j2) (j_prev j2) ref = Ok (ds, ss, up, lo, s', log) /\
  map sc_status log = [Success] /\ last ss (j_start j2) <> ref /\ round set3 m0 2 (ACorr ds ss up lo) = Fail EEnsure.
Proof.
  destruct (three_points ((-1, -1) : VS_R * R) (0, 0) (1, 0)) as (d0 & m0 & j1 & j2 & E0 & Hp & Es & Er & _ & Ej & Hf).
  assert (E : exists s, step exJump exLoose Crisfield (setPrevious (-1 : VS_R) (-1) (setSolution (0 : VS_R) 0 (ALMBase.setLength 1 (exSt VS_R R 1)))) = Ret tt s /\
    s_stat s = Success /\ s_U s = 18/25 /\ s_L s = -27/50 /\ s_phi s = 1).
  { eexists. split; [ev|]. rcbv. repeat split; lra. }
  destruct E as (s & E1 & E2 & E3 & E4 & E5).
  destruct (correction_one (solverALM exJump exLoose Crisfield) mirrored (exSt VS_R R 1) 1 (0, 0) (-1, -1) (1, 0) Success s) as (up & lo & c & H & Hc).
  - cbn. unfold solverStep, returned. cbn in E1. rewrite E1. cbn. rewrite E2. reflexivity.
  - reflexivity.
  - apply not_mirrored; cbn; [lra|]. rewrite E3. lra.
  - exists d0, m0, j2. do 6 eexists. exists (1, 0). split; [exact Hp|]. split; [exact Es|]. split; [rewrite Er; right; left; reflexivity|].
    subst j2. split; [reflexivity|]. cbn [j_dt j_start j_prev]. split; [exact H|]. split; [apply (f_equal (fun t => [t]) Hc)|]. split.
    + cbn. intros Q. injection Q. intros. lra.
    + apply Hf. cbn. unfold solverDistance, distance. cbn. unfold A0. rewrite E3, E4, E5. cbn.
      match goal with |- sqrt ?e <= _ => replace e with ((9/10) * (9/10)) by field end. rewrite sqrt_square; lra.
Qed.
Print Assumptions C90_crisfield_refuted.

(** ** A failed factorisation: the solution of the failed step is stored as if it had
    converged, at distance 0, and the main process stops when it receives the result. *)
Definition exNoFactor : problem VS_R R := @mkProblem VS_R R
  (fun u l => Some (2 * u - l)) (fun _ _ => Some 2) (fun _ => false)
  (fun m f => Some (f / m)) (fun m x => m * x) (fun m => [m]) (fun m => Some [m]) 1 1 1.
Theorem C90_solver_error_refuted : exists d0 m0 j2 ds ss up lo s' log ref,
  prepared set3 [d0] /\ startMain set3 [] 3 [d0] = Ok m0 /\ In (2%nat, j2) (mn_running m0) /\ j_info j2 = JCorr (1, 2) ref /\
  correction_ (solverALM exNoFactor (exOpts 5) Riks) mirrored 1 1 (exSt VS_R R 1) (j_dt j2) (j_start j2) (j_prev j2) ref = Ok (ds, ss, up, lo, s', log) /\
  map sc_status log = [SolverError] /\ ss = [j_start j2] /\ round set3 m0 2 (ACorr ds ss up lo) = Fail EEnsure.
Proof.
  destruct (three_points ((0, 0) : VS_R * R) (1, 2) (2, 4)) as (d0 & m0 & j1 & j2 & E0 & Hp & Es & Er & _ & Ej & Hf).
  assert (E : exists s, step exNoFactor (exOpts 5) Riks (setPrevious (0 : VS_R) 0 (setSolution (1 : VS_R) 2 (ALMBase.setLength 1 (exSt VS_R R 1)))) = Ret tt s /\
    s_stat s = SolverError /\ s_U s = 1 /\ s_L s = 2 /\ s_phi s = 1).
  { eexists. split; [ev|]. rcbv. repeat split; lra. }
  destruct E as (s & E1 & E2 & E3 & E4 & E5).
  destruct (correction_one (solverALM exNoFactor (exOpts 5) Riks) mirrored (exSt VS_R R 1) 1 (1, 2) (0, 0) (2, 4) SolverError s) as (up & lo & c & H & Hc).
  - change (solverStep exNoFactor (exOpts 5) Riks (setPrevious (0 : VS_R) 0 (setSolution (1 : VS_R) 2 (ALMBase.setLength 1 (exSt VS_R R 1)))) = Ok (SolverError, s)).
    unfold solverStep. rewrite E1. cbn [returned rbind]. rewrite E2. reflexivity.
  - reflexivity.
  - apply not_mirrored; cbn; [lra|]. rewrite E3. lra.
  - exists d0, m0, j2. do 6 eexists. exists (2, 4). split; [exact Hp|]. split; [exact Es|]. split; [rewrite Er; right; left; reflexivity|].
    subst j2. split; [reflexivity|]. cbn [j_dt j_start j_prev]. split; [exact H|]. split; [apply (f_equal (fun t => [t]) Hc)|]. split.
    + cbn. rewrite E3, E4. reflexivity.
    + apply Hf. cbn. unfold solverDistance, distance, norm. cbn. rewrite E3, E4, E5. cbn.
      match goal with |- sqrt ?e <= _ => replace e with 0 end; [rewrite sqrt_0; lra|].
      replace ((1 + -1 * 1) * (1 + -1 * 1)) with 0 by ring. rewrite sqrt_0. ring.
Qed.
Print Assumptions C90_solver_error_refuted.
