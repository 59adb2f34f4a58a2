(** Property C98: a step taken after setLength, setSolution and setPrevious (src/gsALMSolvers/gsALMBase.h l.114-118, l.187-196)
    does not depend on what the solver did before; so that the workers of gsAPALM can take any job, and the curves do not
    depend on which worker got which. *)
From Verif Require Import VS Status RunTac ALMBase ALMBaseProofs ALMStep ALMRun ALMRestart
  APALMData APALMDataProofs APALMDataInv APALMSpec APALMHist APALMDriver APALMSched APALMExec APALMOrder APALMOrderExec
  APALMWorker APALMWorkerProofs Props_APALMWorker APALMSolver Props_APALMSolver Props_APALMOrder Props_APALMOrder2.
Local Open Scope R_scope.

(** what has to agree between two solvers: the settings of the length and a user's m_phi; no guess is set *)
Definition ownPhi (o : opts) (k : kind) : Prop := o_phiUser o = true /\ (k = Crisfield \/ k = ConsistentCrisfield).
Definition alike {S : VS} {Mat} (o : opts) (k : kind) (s t : st S Mat) : Prop :=
  s_initialized s = s_initialized t /\ s_adaptive s = s_adaptive t /\ s_desired s = s_desired t /\
  s_guess s = None /\ s_guess t = None /\ (ownPhi o k -> s_phi s = s_phi t).
(** gsALMCrisfield keeps m_deltaU, which it gives to the Jacobian; gsALMConsistentCrisfield keeps m_deltaUt, from which it computes m_phi *)
Definition forgets {S : VS} {Mat} (p : problem S Mat) (o : opts) (k : kind) : Prop :=
  (k = Crisfield -> forall u d d', p_jacobian p u d = p_jacobian p u d') /\ (k = ConsistentCrisfield -> o_phiUser o = true).

Section Step.
Context {S : VS} {Mat : Type}.
Variable p : problem S Mat.
Variable o : opts.
Variable k : kind.
Hypothesis Hbif : o_bif o <> BifUnknown.
Hypothesis HF : forgets p o k.
Implicit Types s t : st S Mat.

Lemma forgets_re : restartable p o k.
Proof. destruct HF as [H1 H2]. unfold restartable. destruct k; auto. Qed.
Definition R0 s t : Prop := core s = core t /\ s_guess s = None /\ (ownPhi o k -> s_phi s = s_phi t).
Lemma R0_agree s t : R0 s t -> agree o k s t.
Proof. intros (H1 & _ & H2). split; [exact H1|]. unfold phiNeeded. unfold ownPhi in H2. destruct k; try discriminate; intros H; apply H2; auto. Qed.
Lemma R0_start s t (start prev : S * R) l : alike o k s t ->
  R0 (setPrevious (fst prev) (snd prev) (setSolution (fst start) (snd start) (ALMBase.setLength l s))) (setPrevious (fst prev) (snd prev) (setSolution (fst start) (snd start) (ALMBase.setLength l t))).
Proof.
  intros (H1 & H2 & H3 & H4 & H5 & H6). unfold R0, core. cbn. rewrite H1, H2, H3, H4, H5. split; [reflexivity|]. split; [reflexivity|]. exact H6.
Qed.
(** two steps from states that agree *)
Lemma R0_step s t : R0 s t ->
  match step p o k s, step p o k t with
  | Ret _ s', Ret _ t' => s_stat s' = s_stat t' /\ R0 s' t' /\ (s_stat s' = Success -> k <> LoadControl -> s_phi s' = s_phi t')
  | Exc e _, Exc e' _ => e = e'
  | _, _ => False
  end.
Proof.
  intros H. pose proof (step_rel p o Hbif k forgets_re s t (proj1 (proj2 H)) (R0_agree s t H)) as R.
  pose proof (step_guess p o k s (proj1 (proj2 H))) as G. destruct H as (H1 & H2 & H3).
  assert (G' : s_guess t = None) by (rewrite <- H2; unfold core in H1; congruence).
  assert (PH : ownPhi o k -> s_phi (outSt (step_ p o k s)) = s_phi (outSt (step_ p o k t))).
  { intros U. assert (K : k <> Riks) by (destruct U as [_ [->| ->]]; discriminate). rewrite (step_phi p o (proj1 U) k s K H2), (step_phi p o (proj1 U) k t K G'). exact (H3 U). }
  unfold step in *. destruct (step_ p o k s) as [[] s1|e s1], (step_ p o k t) as [[] t1|e' t1]; try contradiction; destruct R as [R1 R2]; cbn [outSt] in *.
  - split; [reflexivity|]. split.
    + split; [apply (f_equal fst) in R2; exact R2|]. split; [exact G|]. exact PH.
    + intros _ K. cbn. apply (f_equal snd) in R2. cbn [snd] in R2. unfold phiSet in R2. destruct k; [congruence|..]; cbn [opt] in R2; congruence.
  - rewrite <- R1. destruct (statusOf e) as [t0|] eqn:Es; [|reflexivity]. split; [reflexivity|]. split.
    + split; [exact R2|]. split; [exact G|]. exact PH.
    + cbn. intros ->. exfalso. clear -Es. destruct e; try discriminate. cbn in Es. repeat (match type of Es with context [match ?x with _ => _ end] => destruct x end; try discriminate).
Qed.
Lemma R0_distance s t du dl : (k <> LoadControl -> s_phi s = s_phi t) -> distance p k du dl s = distance p k du dl t.
Proof. clear HF. intros H. unfold distance, A0. destruct k; try reflexivity; rewrite H by discriminate; reflexivity. Qed.
End Step.

(** Two solvers of the same method for the same problem, with any histories: the step after setLength, setSolution and setPrevious
    has the same status and gives the same solution; if it converged, distance() measures the same. *)
Theorem C98_step_partial {S : VS} {Mat} (p : problem S Mat) o k (s t : st S Mat) (start prev : S * R) l :
  o_bif o <> BifUnknown -> forgets p o k -> alike o k s t ->
  match step p o k (setPrevious (fst prev) (snd prev) (setSolution (fst start) (snd start) (ALMBase.setLength l s))),
        step p o k (setPrevious (fst prev) (snd prev) (setSolution (fst start) (snd start) (ALMBase.setLength l t))) with
  | Ret _ s', Ret _ t' => s_stat s' = s_stat t' /\
      (s_U s', s_L s', s_Uprev s', s_Lprev s', s_len s', s_lenPrev s') = (s_U t', s_L t', s_Uprev t', s_Lprev t', s_len t', s_lenPrev t') /\
      alike o k s' t' /\ (s_stat s' = Success -> forall du dl, distance p k du dl s' = distance p k du dl t')
  | Exc e _, Exc e' _ => e = e'
  | _, _ => False
  end.
Proof.
  intros HB HF HA. pose proof (R0_step p o k HB HF _ _ (R0_start o k s t start prev l HA)) as R. revert R.
  set (s0 := setPrevious _ _ _). set (t0 := setPrevious _ _ (setSolution _ _ (ALMBase.setLength l t))).
  destruct (step p o k s0) as [[] s'|e s'] eqn:E1, (step p o k t0) as [[] t'|e' t'] eqn:E2; auto.
  intros (R1 & (R2 & R3 & R4) & R5). split; [exact R1|]. split; [unfold core in R2; congruence|]. split.
  - assert (s_guess t' = None) by (rewrite <- R3; unfold core in R2; congruence). unfold core in R2. repeat split; try congruence. exact R4.
  - intros E du dl. apply R0_distance. exact (R5 E).
Qed.
Print Assumptions C98_step_partial.

(** ** Corrections *)
Section Sim.
Context {sol : Type}.
Variables A : ALM sol.
Notation state := (alm_state A).
Variable Rel : state -> state -> Prop.
Hypothesis Rlen : forall l a b, Rel a b -> Rel (alm_setLength A l a) (alm_setLength A l b).
Hypothesis Rsol : forall x a b, Rel a b -> Rel (alm_setSolution A x a) (alm_setSolution A x b).
Hypothesis Rsame : forall a b, Rel a b -> alm_solution A a = alm_solution A b.
Definition sameDist (a b : state) : Prop := forall x y, alm_distance A a x y = alm_distance A b x y.
Hypothesis Dlen : forall l a b, sameDist a b -> sameDist (alm_setLength A l a) (alm_setLength A l b).
Hypothesis Rstep : forall a b s a', Rel a b -> alm_step A a = Ok (s, a') ->
  exists b', alm_step A b = Ok (s, b') /\ Rel a' b' /\ (s = Success -> sameDist a' b').

Lemma corrLoop_log : forall f dL0 dL rem bi k N old ds ss (a : state) log ds' ss' a' log',
  corrLoop A f dL0 dL rem bi k N old ds ss a log = Ok (ds', ss', a', log') -> exists l, log' = log ++ l.
Proof.
  induction f as [|f IH]; intros dL0 dL rem bi k N old ds ss a log ds' ss' a' log' H; cbn [corrLoop] in H; (destruct (Nat.eqb k N); [injection H as _ _ _ <-; exists []; rewrite app_nil_r; reflexivity|]); [discriminate|].
  unfold call in H. destruct (alm_step A a) as [[s a1]|]; [|discriminate]. cbn [rbind] in H.
  destruct (retry s); [|destruct (negb bi)]; apply IH in H as (l & ->); rewrite <- app_assoc; eauto.
Qed.
(** the result, apart from the distances in the log *)
Lemma corrLoop_sim : forall f f' dL0 dL rem bi k N old ds ss (a b : state) log log2 ds' ss' a' log',
  corrLoop A f dL0 dL rem bi k N old ds ss a log = Ok (ds', ss', a', log') -> (f <= f')%nat -> Rel a b -> (ss <> [] -> k = N -> sameDist a b) ->
  Forall (fun c => In (sc_status c) [Success; NotConverged; AssemblyError]) log' ->
  exists b' log2', corrLoop A f' dL0 dL rem bi k N old ds ss b log2 = Ok (ds', ss', b', log2 ++ log2') /\ Rel a' b' /\ (ss' <> [] -> sameDist a' b') /\
    exists l, log' = log ++ l /\ map sc_status l = map sc_status log2'.
Proof.
  induction f as [|f IH]; intros f' dL0 dL rem bi k N old ds ss a b log log2 ds' ss' a' log' H Hf HR HD HP.
  - cbn [corrLoop] in H. destruct (Nat.eqb k N) eqn:E; [|discriminate]. injection H as <- <- <- <-. apply Nat.eqb_eq in E as EN. exists b, []. rewrite !app_nil_r.
    split; [destruct f'; cbn [corrLoop]; rewrite E; reflexivity|]. split; [exact HR|]. split; [auto|]. exists []. rewrite app_nil_r. auto.
  - destruct (Nat.eqb k N) eqn:E.
    { cbn [corrLoop] in H. rewrite E in H. injection H as <- <- <- <-. apply Nat.eqb_eq in E as EN. exists b, []. rewrite !app_nil_r.
      split; [destruct f'; cbn [corrLoop]; rewrite E; reflexivity|]. split; [exact HR|]. split; [auto|]. exists []. rewrite app_nil_r. auto. }
    destruct f' as [|f']; [lia|]. cbn [corrLoop] in H |- *. rewrite E in H |- *. unfold call in H |- *.
    destruct (alm_step A a) as [[s a1]|] eqn:Ea; [|discriminate]. destruct (Rstep a b s a1 HR Ea) as (b1 & Eb & HR1 & HD1). rewrite Eb. cbn [rbind] in H |- *.
    match type of H with context [log ++ [?c]] => set (ca := c) in * end. match goal with |- context [log2 ++ [?c]] => set (cb := c) in * end.
    assert (Hs : In s [Success; NotConverged; AssemblyError]).
    { assert (In ca log'); [|rewrite Forall_forall in HP; apply (HP ca H0)].
      destruct (retry s); [|destruct (negb bi)]; apply corrLoop_log in H as (l & ->); apply in_or_app; left; apply in_or_app; right; left; reflexivity. }
    destruct (retry s) eqn:Er.
    + destruct (IH f' dL0 _ _ _ _ _ _ _ _ _ (alm_setSolution A old (alm_setLength A (dL / 2) b1)) _ (log2 ++ [cb]) _ _ _ _ H ltac:(lia)) as (b' & l2 & X1 & X2 & X3 & l & X4 & X5); auto.
      { intros _ Q. apply Nat.eqb_neq in E. congruence. }
      exists b', (cb :: l2). rewrite <- app_assoc in X1. split; [exact X1|]. split; [exact X2|]. split; [exact X3|]. exists (ca :: l). rewrite <- app_assoc in X4. split; [exact X4|]. cbn [map]. rewrite X5. reflexivity.
    + assert (s = Success) as -> by (destruct Hs as [<-|[<-|[<-|[]]]]; [reflexivity|discriminate..]). specialize (HD1 eq_refl).
      rewrite <- (Rsame _ _ HR1), <- (HD1 old (alm_solution A a1)).
      destruct (if negb bi then (dL0, N) else (rem, Datatypes.S N)) as [dL' N'] eqn:EN.
      destruct (IH f' dL0 _ _ _ _ _ _ _ _ _ (alm_setLength A dL' b1) _ (log2 ++ [cb]) _ _ _ _ H ltac:(lia)) as (b' & l2 & X1 & X2 & X3 & l & X4 & X5); auto.
      exists b', (cb :: l2). rewrite <- app_assoc in X1. split; [exact X1|]. split; [exact X2|]. split; [exact X3|]. exists (ca :: l). rewrite <- app_assoc in X4. split; [exact X4|]. cbn [map]. rewrite X5. reflexivity.
Qed.
Lemma correction_sim opposite f f' n (a b : state) D start prev ref ds ss up lo a' log : (f <= f')%nat ->
  Rel (alm_setPrevious A prev (alm_setSolution A start (alm_setLength A (D / INR n) a))) (alm_setPrevious A prev (alm_setSolution A start (alm_setLength A (D / INR n) b))) ->
  correction_ A opposite f n a D start prev ref = Ok (ds, ss, up, lo, a', log) ->
  Forall (fun c => In (sc_status c) [Success; NotConverged; AssemblyError]) log ->
  exists b' log2, correction_ A opposite f' n b D start prev ref = Ok (ds, ss, up, lo, b', log2) /\ Rel a' b' /\ map sc_status log = map sc_status log2.
Proof.
  intros Hf HR H HP. unfold correction_ in H |- *. destruct (Nat.eqb n 0); [discriminate|].
  match type of H with rbind ?X _ = _ => destruct X as [[[[ds0 ss0] a0] log0]|] eqn:E; [|discriminate] end. cbn [rbind] in H.
  destruct (opposite ref (alm_solution A a0)) eqn:Eo; [discriminate|]. destruct (rev ss0) as [|x r] eqn:Er; [discriminate|]. injection H as <- <- <- <- <- <-.
  destruct (corrLoop_sim f f' _ _ _ _ _ _ _ _ _ _ _ _ [] _ _ _ _ E Hf HR ltac:(congruence) HP) as (b' & l2 & X1 & X2 & X3 & l & -> & X5).
  cbn [app] in X1. rewrite X1. cbn [rbind]. rewrite <- (Rsame _ _ X2), Eo, Er. assert (D0 : sameDist a0 b') by (apply X3; intros ->; discriminate).
  rewrite <- !D0. exists b', l2. split; [reflexivity|]. split; [exact X2|]. exact X5.
Qed.
End Sim.

(** A correction job given to two workers, whatever their solvers did before, with steps that converge or are repeated: the same
    distances, solutions, bounds and statuses; and the solvers are alike afterwards. *)
Theorem C98_correction_partial {S : VS} {Mat} (p : problem S Mat) o k opposite fuel fuel' n (s t : st S Mat) D start prev ref ds ss up lo s' log :
  o_bif o <> BifUnknown -> forgets p o k -> alike o k s t -> (fuel <= fuel')%nat ->
  correction_ (solverALM p o k) opposite fuel n s D start prev ref = Ok (ds, ss, up, lo, s', log) ->
  Forall (fun c => In (sc_status c) [Success; NotConverged; AssemblyError]) log ->
  exists t' log', correction_ (solverALM p o k) opposite fuel' n t D start prev ref = Ok (ds, ss, up, lo, t', log') /\
    map sc_status log' = map sc_status log /\ alike o k s' t'.
Proof.
  intros HB HF HA Hf H HP.
  destruct (correction_sim (solverALM p o k) (R0 o k)) with (opposite := opposite) (f := fuel) (f' := fuel') (n := n) (a := s) (b := t) (D := D) (start := start) (prev := prev) (ref := ref)
    (ds := ds) (ss := ss) (up := up) (lo := lo) (a' := s') (log := log) as (t' & log' & X1 & X2 & X3); auto.
  - intros l a b (H1 & H2 & H3). split; [|split; [exact H2|exact H3]]. cbn. unfold core in *. cbn. congruence.
  - intros [u l] a b (H1 & H2 & H3). split; [|split; [exact H2|exact H3]]. cbn. unfold core in *. cbn. congruence.
  - intros a b (H1 & _). cbn. unfold core in H1. congruence.
  - intros a b s0 a' HR Hs. cbn [alm_step solverALM] in *. unfold solverStep, returned in *. pose proof (R0_step p o k HB HF a b HR) as Q.
    destruct (step p o k a) as [[] a1|]; [|discriminate]. cbn [rbind] in Hs. injection Hs as <- <-. destruct (step p o k b) as [[] b1|]; [|contradiction].
    destruct Q as (Q1 & Q2 & Q3). exists b1. cbn [rbind]. rewrite Q1. split; [reflexivity|]. split; [exact Q2|]. intros E x y. cbn. unfold solverDistance.
    rewrite (R0_distance p k a1 b1); [reflexivity|]. rewrite <- Q1 in E. exact (Q3 E).
  - apply (R0_start o k s t start prev _ HA).
  - exists t', log'. split; [exact X1|]. split; [symmetry; exact X3|]. destruct X2 as (Y1 & Y2 & Y3).
    assert (s_guess t' = None) by (rewrite <- Y2; unfold core in Y1; congruence). unfold core in Y1. repeat split; try congruence. exact Y3.
Qed.
Print Assumptions C98_correction_partial.

(** ** Curves *)
Section Curves.
Context {sol : Type}.
Variable dec : forall a b : sol, {a = b} + {a <> b}.
(** what a correction is asked for *)
Definition question (x : nat * job sol * answer sol) : option (Z * R * sol * sol * sol) :=
  match j_info (snd (fst x)) with JCorr _ r => Some (j_level (snd (fst x)), j_dt (snd (fst x)), j_start (snd (fst x)), j_prev (snd (fst x)), r) | JInit _ => None end.
Definition isCorr (x : nat * job sol * answer sol) : Prop := question x <> None /\ match snd x with ACorr _ _ _ _ => True | _ => False end.
Definition sameQ (q q' : Z * R * sol * sol * sol) : {q = q'} + {q <> q'}.
Proof.
  destruct q as [[[[z r] a] b] c], q' as [[[[z' r'] a'] b'] c']. destruct (Z.eq_dec z z'), (Req_EM_T r r'), (dec a a'), (dec b b'), (dec c c'); [left; congruence|right; congruence..].
Defined.
(** the first answer to the question in a list *)
Fixpoint firstAnswer (tr : list (nat * job sol * answer sol)) (q : Z * R * sol * sol * sol) : list R * list sol * R * R :=
  match tr with
  | [] => ([], [], 0, 0)
  | x :: tr => match question x, snd x with
               | Some q', ACorr ds ss up lo => if sameQ q q' then (ds, ss, up, lo) else firstAnswer tr q
               | _, _ => firstAnswer tr q
               end
  end.
Lemma first_found tr : forall x ds ss up lo, In x tr -> question x <> None -> snd x = ACorr ds ss up lo ->
  (forall y, In y tr -> question y = question x -> snd y = snd x) -> forall q, question x = Some q -> firstAnswer tr q = (ds, ss, up, lo).
Proof.
  induction tr as [|y tr IH]; intros x ds ss up lo Hx Hq Ha HC q Eq; [destruct Hx|]. cbn [firstAnswer].
  assert (HI : In x tr -> firstAnswer tr q = (ds, ss, up, lo)) by (intros Hi; apply (IH x); auto; intros z Hz; apply HC; right; exact Hz).
  destruct (question y) as [q'|] eqn:Ey.
  - destruct (sameQ q q') as [->|N].
    + rewrite (HC y ltac:(left; reflexivity) ltac:(congruence)). rewrite Ha. destruct (sameQ q' q'); [reflexivity|congruence].
    + destruct Hx as [->|Hx]; [congruence|]. destruct (snd y); [|apply HI, Hx]. destruct (sameQ q q'); [congruence|apply HI, Hx].
  - destruct Hx as [->|Hx]; [congruence|]. destruct (snd y); apply HI, Hx.
Qed.
(** Two complete executions in which equal questions got equal answers. *)
Lemma consistent_curves (st st' : settings sol) c P P' m0 m0' tr tr' m m' :
  st_solve st = false -> st_solve st' = false -> prepared st c -> prepared st' c ->
  startMain st [] P c = Ok m0 -> execution st m0 tr m -> Forall isCorr tr -> complete m ->
  startMain st' [] P' c = Ok m0' -> execution st' m0' tr' m' -> Forall isCorr tr' -> complete m' ->
  (forall x y, In x (tr ++ tr') -> In y (tr ++ tr') -> question x = question y -> snd x = snd y) ->
  sameCurves (mn_data m) (mn_data m').
Proof.
  intros S S' Hp Hp' H0 HX HI HE H0' HX' HI' HE' HC.
  assert (B : forall l, Forall isCorr l -> (forall x, In x l -> In x (tr ++ tr')) -> Forall (byWork (fun lev dt s p r => firstAnswer (tr ++ tr') (lev, dt, s, p, r))) l).
  { intros l HL HS. rewrite Forall_forall in *. intros x Hx. destruct (HL x Hx) as [Q1 Q2]. specialize (HS x Hx).
    destruct x as [[w j] a]. unfold byWork, question in *. cbn [fst snd] in *. destruct (j_info j) as [|iv r] eqn:Ej; [congruence|]. destruct a as [ds ss up lo|]; [|contradiction].
    apply (first_found _ (w, j, ACorr ds ss up lo)); auto; unfold question; cbn [fst snd]; rewrite ?Ej; try congruence.
  }
  apply (C97_order_partial _ st st' c P P' m0 m0' tr tr' m m' S S' Hp Hp' H0 HX (B tr HI ltac:(intros; apply in_or_app; auto)) HE H0' HX' (B tr' HI' ltac:(intros; apply in_or_app; auto)) HE').
Qed.
End Curves.

(** a solver ready for jobs *)
Definition ready {S : VS} {Mat} (o : opts) (k : kind) (ad : bool) (it : Z) (phi : R) (s : st S Mat) : Prop :=
  s_initialized s = true /\ s_adaptive s = ad /\ s_desired s = it /\ s_guess s = None /\ (ownPhi o k -> s_phi s = phi).
(** a correction computed by a solver in some such state, m_subIntervals = n; all stored steps converged *)
Definition solved {S : VS} {Mat} (p : problem S Mat) o k opposite (n : nat) ad it phi (x : nat * job (S * R) * answer (S * R)) : Prop :=
  let '(_, j, a) := x in
  match j_info j, a with
  | JCorr _ ref, ACorr ds ss up lo => exists s fuel s' log, ready o k ad it phi s /\
      correction_ (solverALM p o k) opposite fuel n s (j_dt j) (j_start j) (j_prev j) ref = Ok (ds, ss, up, lo, s', log) /\
      Forall (fun c => In (sc_status c) [Success; NotConverged; AssemblyError]) log
  | _, _ => False
  end.
Lemma ready_alike {S : VS} {Mat} o k ad it phi (s t : st S Mat) : ready o k ad it phi s -> ready o k ad it phi t -> alike o k s t.
Proof. intros (H1 & H2 & H3 & H4 & H5) (T1 & T2 & T3 & T4 & T5). repeat split; try congruence. intros U. rewrite (H5 U), (T5 U). reflexivity. Qed.
Lemma VS_dec {S : VS} (a b : S * R) : {a = b} + {a <> b}.
Proof.
  destruct a as [u x], b as [v y]. destruct (Req_EM_T x y) as [->|N]; [|right; congruence].
  destruct (Req_EM_T (dot (u -v v) (u -v v)) 0) as [E|E].
  - left. apply dot_zero, vsub_zero_eq in E. congruence.
  - right. intros Q. injection Q as ->. apply E. replace (v -v v) with (v0 : S) by vring. apply dot_0_l.
Qed.

(** parallelSolve() with solvers of this module: the curves do not depend on the number of workers, the order in which they answer, which
    of them gets which job, and what their solvers did before. *)
Theorem C98_curves_partial {S : VS} {Mat} (p : problem S Mat) o k opposite n ad it phi (st st' : settings (S * R)) c P P' m0 m0' tr tr' m m' :
  o_bif o <> BifUnknown -> forgets p o k ->
  st_solve st = false -> st_solve st' = false -> prepared st c -> prepared st' c ->
  startMain st [] P c = Ok m0 -> execution st m0 tr m -> Forall (solved p o k opposite n ad it phi) tr -> complete m ->
  startMain st' [] P' c = Ok m0' -> execution st' m0' tr' m' -> Forall (solved p o k opposite n ad it phi) tr' -> complete m' ->
  sameCurves (mn_data m) (mn_data m').
Proof.
  intros HB HF S0 S0' Hp Hp' H0 HX HS HE H0' HX' HS' HE'.
  assert (I : forall l, Forall (solved p o k opposite n ad it phi) l -> Forall isCorr l).
  { intros l. apply Forall_impl. intros [[w j] a]. unfold solved, isCorr, question. cbn [fst snd]. destruct (j_info j); [intros []|]. destruct a; [|intros []]. intros _. split; [discriminate|exact I]. }
  apply (consistent_curves VS_dec st st' c P P' m0 m0' tr tr' m m' S0 S0' Hp Hp' H0 HX (I _ HS) HE H0' HX' (I _ HS') HE').
  assert (HA : Forall (solved p o k opposite n ad it phi) (tr ++ tr')) by (apply Forall_app; split; assumption). rewrite Forall_forall in HA.
  intros [[w j] a] [[w' j'] a'] Hx Hy. specialize (HA _ Hx) as Ax. specialize (HA _ Hy) as Ay. unfold solved, question in *. cbn [fst snd] in *.
  destruct (j_info j) as [|iv r]; [contradiction|]. destruct a as [ds ss up lo|]; [|contradiction]. destruct (j_info j') as [|iv' r']; [contradiction|]. destruct a' as [ds' ss' up' lo'|]; [|contradiction].
  intros Q. injection Q as Q1 Q2 Q3 Q4 Q5. rewrite <- Q2, <- Q3, <- Q4, <- Q5 in Ay. destruct Ax as (s & f & s1 & log & R1 & C1 & L1). destruct Ay as (t & f' & t1 & log' & R2 & C2 & L2).
  destruct (C98_correction_partial p o k opposite f (Nat.max f f') n s s _ _ _ _ _ _ _ _ _ _ HB HF (ready_alike _ _ _ _ _ _ _ R1 R1) ltac:(lia) C1 L1) as (s2 & l2 & X1 & _).
  destruct (C98_correction_partial p o k opposite f' (Nat.max f f') n t s _ _ _ _ _ _ _ _ _ _ HB HF (ready_alike _ _ _ _ _ _ _ R2 R1) ltac:(lia) C2 L2) as (s3 & l3 & X2 & _).
  rewrite X1 in X2. congruence.
Qed.
Print Assumptions C98_curves_partial.

(** ** Examples *)
(** a fresh solver and one after a step from the origin *)
Example C98_step_example : exists t s1 t1, let s := exSt VS_R R 1 in let o := exOpts 5 in
  step exSpring o Riks s = Ret tt t /\ s_U t <> s_U s /\ s_dUt t <> s_dUt s /\ forgets exSpring o Riks /\ alike o Riks s t /\
  step exSpring o Riks (setPrevious (0 : VS_R) 0 (setSolution (0 : VS_R) 0 (ALMBase.setLength 1 s))) = Ret tt s1 /\
  step exSpring o Riks (setPrevious (0 : VS_R) 0 (setSolution (0 : VS_R) 0 (ALMBase.setLength 1 t))) = Ret tt t1 /\
  s_stat s1 = Success /\ s_U s1 = s_U t1 /\ 0 < s_U t1.
Proof.
  assert (E : exists t, step exSpring (exOpts 5) Riks (exSt VS_R R 1) = Ret tt t /\ 0 < s_U t /\ s_dUt t <> 0 /\ s_guess t = None /\ s_initialized t = true /\ s_adaptive t = false /\ s_desired t = 10%Z).
  { eexists. split; [ev|]. rcbv. repeat split; lra. }
  destruct E as (t & E1 & E2 & E3 & E4 & E5 & E6 & E7).
  assert (F : exists s, step exSpring (exOpts 5) Riks (setPrevious (0 : VS_R) 0 (setSolution (0 : VS_R) 0 (ALMBase.setLength 1 (exSt VS_R R 1)))) = Ret tt s /\ s_stat s = Success /\ 0 < s_U s).
  { eexists. split; [ev|]. rcbv. repeat split; lra. }
  destruct F as (s1 & F1 & F2 & F3).
  assert (HF : forgets exSpring (exOpts 5) Riks) by (split; discriminate).
  assert (HA : alike (exOpts 5) Riks (exSt VS_R R 1) t) by (repeat split; cbn; auto; intros [_ [Q|Q]]; discriminate).
  pose proof (C98_step_partial exSpring (exOpts 5) Riks (exSt VS_R R 1) t (0, 0) (0, 0) 1 ltac:(discriminate) HF HA) as Q. cbn [fst snd] in Q. rewrite F1 in Q.
  match type of Q with match ?X with _ => _ end => destruct X as [[] t1|] eqn:Et; [|contradiction] end. destruct Q as (_ & Q & _). injection Q as Q _ _ _ _ _.
  exists t, s1, t1. cbv zeta. split; [exact E1|]. split; [cbn; lra|]. split; [exact E3|]. split; [exact HF|]. split; [exact HA|]. split; [exact F1|]. split; [exact Et|]. split; [exact F2|]. split; [exact Q|]. rewrite <- Q. exact F3.
Qed.

(** two solutions, one correction *)
Definition set1 {sol} : settings sol := mkSettings false 5 0 1 1 (newData 1 (1/10)).
Lemma two_points {sol} (a b : sol) P : P = 2%nat \/ P = 3%nat -> exists d0 m0 j1,
  initWith (newData 1 (1/10)) [0; 1] [a; b] = Ok d0 /\ prepared set1 [d0] /\
  startMain set1 [] P [d0] = Ok m0 /\ mn_running m0 = [(1%nat, j1)] /\ j1 = mkJob 0 0 1 1 a a (JCorr (0, 1) b) /\
  forall x y s up lo, 1 <= x -> 0 < y -> exists m, round set1 m0 1 (ACorr [x; y] [s] up lo) = Ok m /\ complete m.
Proof.
  intros HP. assert (A0 : (0 - 0) / (1 - 0) = 0) by field. assert (A1 : (1 - 0) / (1 - 0) = 1) by field. assert (A4 : 1 - 0 = 1) by ring.
  assert (Hi : incr [0; 1]) by (apply incr_cons; split; [apply incr_one|]; intros y [<-|[]]; lra).
  assert (Q : forall d0, initWith (newData 1 (1/10)) [0; 1] [a; b] = Ok d0 -> prepared set1 [d0]).
  { intros d0 E0. pose proof (cr_data 1 (1/10) [0;1] [a;b] d0 Hi eq_refl E0) as Hc.
    destruct (created_data_inv 1 (1/10) [0;1] [a;b] d0 Hi eq_refl E0) as (q & I0 & Et & Es & Pl & O1 & O2 & O3 & O4 & O5 & Epp).
    destruct q as [|p0 [|p1 [|]]]; try discriminate.
    split; [eexists; eexists; reflexivity|]. cbn. constructor; [|constructor]. split.
    - exists 1%Z, (1/10), d0, []. split; [auto|constructor].
    - unfold waiting, handedOut. rewrite O4, O5. cbn. unfold correction. split; auto. constructor; [cbn; lia|constructor]. }
  assert (Q0 : forall x y, 1 <= x -> 0 < y -> exists q, 0 < q < 1 /\ 0 + (1 - 0) * (0 + x - 0) / (0 + x + y - 0) = q).
  { intros x y Hx Hy. exists (x / (x + y)). split; [|field; lra]. split; [apply Rdiv_lt_0_compat; lra|]. apply Rmult_lt_reg_r with (x + y); [lra|]. unfold Rdiv. rewrite Rmult_assoc, Rinv_l; lra. }
  destruct HP as [->| ->]; (do 3 eexists;
  match goal with |- ?X /\ _ => assert (E0 : X) end;
  [unfold initWith, setData; cbn [sortedb]; rdec1; cbn [andb negb]; unfold transform01; cbn [last]; rdec1;
    cbn [map rbind]; rewrite A0, A1; rrun; reflexivity|];
  split; [exact E0|]; split; [apply Q; exact E0|]; clear Q E0;
  split; [rrun; rewrite A4; reflexivity|]; split; [rrun; reflexivity|]; split; [reflexivity|];
  intros x y s up lo Hx Hy; destruct (Q0 x y Hx Hy) as (q & Hq & Eq); eexists; split; [repeat (cbv -[Reqb Rltb Rleb Rplus Rminus Rmult Rdiv Rinv Ropp IZR pow]; rewrite ?Eq; rdec1); cbv -[Reqb Rltb Rleb Rplus Rminus Rmult Rdiv Rinv Ropp IZR pow]; reflexivity|]; split; reflexivity).
Qed.

(** One run with a fresh solver and two processes, one with three and a solver that has answered the same job before. *)
Example C98_curves_example : exists (d0 : data (VS_R * R)) m0 m0' tr tr' m m' s t ds ss up lo log log' t', let o := exOpts 5 in
  ready o Riks false 10 1 s /\ ready o Riks false 10 1 t /\ s_U t <> s_U s /\
  correction_ (solverALM exSpring o Riks) mirrored 1 1 s 1 (0, 0) (0, 0) (5, 10) = Ok (ds, ss, up, lo, t, log) /\
  correction_ (solverALM exSpring o Riks) mirrored 1 1 t 1 (0, 0) (0, 0) (5, 10) = Ok (ds, ss, up, lo, t', log') /\
  prepared set1 [d0] /\
  startMain set1 [] 2 [d0] = Ok m0 /\ execution set1 m0 tr m /\ Forall (solved exSpring o Riks mirrored 1 false 10 1) tr /\ complete m /\
  startMain set1 [] 3 [d0] = Ok m0' /\ execution set1 m0' tr' m' /\ Forall (solved exSpring o Riks mirrored 1 false 10 1) tr' /\ complete m'.
Proof.
  assert (E : exists s, step exSpring (exOpts 5) Riks (setPrevious (0 : VS_R) 0 (setSolution (0 : VS_R) 0 (ALMBase.setLength 1 (exSt VS_R R 1)))) = Ret tt s /\
    s_stat s = Success /\ 0 < s_U s < 2 /\ s_guess s = None /\ s_initialized s = true /\ s_adaptive s = false /\ s_desired s = 10%Z).
  { eexists. split; [ev|]. rcbv. repeat split; lra. }
  destruct E as (s1 & E1 & E2 & E3 & E4 & E5 & E6 & E7).
  destruct (correction_one (solverALM exSpring (exOpts 5) Riks) mirrored (exSt VS_R R 1) 1 (0, 0) (0, 0) (5, 10) Success s1) as (up & lo & c & H & Hc).
  { cbn. unfold solverStep, returned. cbn in E1. rewrite E1. cbn. rewrite E2. reflexivity. }
  { reflexivity. }
  { apply not_mirrored; cbn; lra. }
  set (t := ALMBase.setLength 1 s1). change (alm_setLength (solverALM exSpring (exOpts 5) Riks) 1 s1) with t in H.
  set (A := solverALM exSpring (exOpts 5) Riks) in *. set (x := alm_distance A s1 _ _) in H. set (y := alm_distance A t _ _) in H. set (u := alm_solution A s1) in H.
  assert (Hu : u <> (5, 10)) by (subst u; cbn; intros Q; injection Q; intros; lra).
  assert (Rs : ready (exOpts 5) Riks false 10 1 (exSt VS_R R 1)) by (repeat split; intros; reflexivity).
  assert (Rt : ready (exOpts 5) Riks false 10 1 t) by (repeat split; cbn; auto; intros [_ [Q|Q]]; discriminate).
  assert (HF : forgets exSpring (exOpts 5) Riks) by (split; discriminate).
  assert (PL : Forall (fun c => In (sc_status c) [Success; NotConverged; AssemblyError]) [c]) by (constructor; [left; symmetry; exact Hc|constructor]).
  destruct (C98_correction_partial exSpring (exOpts 5) Riks mirrored 1 1 1 _ t _ _ _ _ _ _ _ _ _ _ ltac:(discriminate) HF (ready_alike _ _ _ _ _ _ _ Rs Rt) (le_n _) H PL) as (t' & log' & H' & L' & _).
  destruct (C90_riks_correction_partial exSpring (exOpts 5) mirrored 1 1 (exSt VS_R R 1) _ _ _ _ _ _ _ _ _ _ ltac:(cbn; lia) eq_refl Rlt_0_1 H PL) as (_ & X1 & _ & X2 & _).
  cbn [last] in X2. specialize (X2 Hu).
  assert (Hy : 0 < y) by (inversion X2 as [|? ? _ X3]; inversion X3; assumption). assert (Hx : 1 <= x) by (replace x with (Rsum [x]) by (unfold Rsum; cbn [fold_right fold_left]; ring); exact X1). clear X1 X2.
  assert (PL' : Forall (fun c => In (sc_status c) [Success; NotConverged; AssemblyError]) log').
  { destruct log' as [|c' [|]]; try discriminate. injection L' as L'. constructor; [left; symmetry; etransitivity; [exact L'|exact Hc]|constructor]. }
  destruct (two_points ((0, 0) : VS_R * R) (5, 10) 2 ltac:(auto)) as (d0 & m0 & j & I0 & Hp & S0 & R0 & J0 & Q0).
  destruct (two_points ((0, 0) : VS_R * R) (5, 10) 3 ltac:(auto)) as (d0' & m0' & j' & I0' & _ & S0' & R0' & J0' & Q0').
  rewrite I0 in I0'. injection I0' as <-. rewrite <- J0 in J0'. subst j'.
  destruct (Q0 x y u up lo Hx Hy) as (m & M1 & M2). destruct (Q0' x y u up lo Hx Hy) as (m' & M1' & M2').
  assert (AC : acceptable j (ACorr [x; y] [u] up lo)).
  { rewrite J0. unfold acceptable. cbn [j_info j_dt]. split; [reflexivity|]. split; [repeat constructor; lra|]. cbn [removelast].
    apply Rle_lt_trans with 0; [|apply Rdiv_lt_0_compat; [lra|apply pow_lt; lra]]. replace (Rsum [x]) with x by (unfold Rsum; cbn [fold_right fold_left]; ring). unfold Rdiv. rewrite Rinv_1. clearbody x. lra. }
  assert (SV : forall s s' l, ready (exOpts 5) Riks false 10 1 s -> correction_ (solverALM exSpring (exOpts 5) Riks) mirrored 1 1 s 1 (0, 0) (0, 0) (5, 10) = Ok ([x; y], [u], up, lo, s', l) ->
    Forall (fun c => In (sc_status c) [Success; NotConverged; AssemblyError]) l -> solved exSpring (exOpts 5) Riks mirrored 1 false 10 1 (1%nat, j, ACorr [x; y] [u] up lo)).
  { intros s s' l Z1 Z2 Z3. rewrite J0. unfold solved. cbn [j_info j_dt j_start j_prev]. exists s, 1%nat, s', l. auto. }
  exists d0, m0, m0', ([] ++ [(1%nat, j, ACorr [x; y] [u] up lo)]), ([] ++ [(1%nat, j, ACorr [x; y] [u] up lo)]), m, m', (exSt VS_R R 1), t, [x; y], [u], up, lo, [c], log', t'. cbv zeta.
  split; [exact Rs|]. split; [exact Rt|]. split; [cbn; lra|]. split; [exact H|]. split; [exact H'|]. split; [exact Hp|].
  split; [exact S0|]. split; [apply (ex_snoc set1 m0 [] m0); [constructor|rewrite R0; left; reflexivity|exact AC|exact M1]|].
  split; [constructor; [exact (SV _ _ _ Rs H PL)|constructor]|]. split; [exact M2|].
  split; [exact S0'|]. split; [apply (ex_snoc set1 m0' [] m0'); [constructor|rewrite R0'; left; reflexivity|exact AC|exact M1']|].
  split; [constructor; [exact (SV _ _ _ Rt H' PL')|constructor]|exact M2'].
Qed.

(** ** What the solvers keep *)
Definition looseOpts (user : bool) (tolU : R) : opts := {|
  o_maxIt := 5; o_tol := 1/2; o_tolF := 1/2; o_tolU := tolU; o_tau := 1; o_quasi := false; o_quasiInterval := (-1)%Z;
  o_bif := BifDeterminant; o_ldlt := true; o_verbose := false; o_relax := 1; o_spFail := true; o_spTestTol := 1/100;
  o_spTestIt := 5; o_spTolE := 1/100; o_spTolB := 0; o_phiUser := user; o_angle := AngStep |}.
(** gsALMConsistentCrisfield: m_phi of the secant predictor comes from the m_deltaUt of the step before. From (1,2), with the
    previous point (0,0), a fresh solver goes to (2,4), one that made a step before to (7/4,7/2). *)
Theorem C98_consistent_refuted : exists t s1 t1, let s := exSt VS_R R 1 in let o := looseOpts false 1 in
  step exSpring o ConsistentCrisfield s = Ret tt t /\ s_stat t = Success /\ alike o ConsistentCrisfield s t /\
  step exSpring o ConsistentCrisfield (setPrevious (0 : VS_R) 0 (setSolution (1 : VS_R) 2 (ALMBase.setLength 1 s))) = Ret tt s1 /\
  step exSpring o ConsistentCrisfield (setPrevious (0 : VS_R) 0 (setSolution (1 : VS_R) 2 (ALMBase.setLength 1 t))) = Ret tt t1 /\
  s_stat s1 = Success /\ s_stat t1 = Success /\ s_U s1 = 2 /\ s_U t1 = 7/4.
Proof.
  do 3 eexists. cbv zeta. split; [ev|]. split; [reflexivity|]. split; [repeat split; intros [Q _]; discriminate|].
  split; [ev|]. split; [ev|]. split; [reflexivity|]. split; [reflexivity|]. split; rcbv; lra.
Qed.
Print Assumptions C98_consistent_refuted.
(** gsALMCrisfield: the m_deltaU of the step before is given to the Jacobian. If that cannot be assembled for increments between 0 and
    1/2, the step from (3,4) succeeds with a fresh solver, but not with one that has made it before. *)
Definition incSpring : problem VS_R R := @mkProblem VS_R R
  (fun u l => Some (4/3 * u - l - 1)) (fun _ d => if Rltb 0 d && Rltb d (1/2) then None else Some (4/3)) (fun _ => true)
  (fun m f => Some (f / m)) (fun m x => m * x) (fun m => [m]) (fun m => Some [m]) 1 1 1.
Theorem C98_crisfield_refuted : exists s1 t1, let s := exSt VS_R R 1 in let o := looseOpts true 1 in
  step incSpring o Crisfield (setPrevious (0 : VS_R) 0 (setSolution (3 : VS_R) 4 (ALMBase.setLength 1 s))) = Ret tt s1 /\ s_stat s1 = Success /\
  alike o Crisfield s s1 /\
  step incSpring o Crisfield (setPrevious (0 : VS_R) 0 (setSolution (3 : VS_R) 4 (ALMBase.setLength 1 s1))) = Ret tt t1 /\ s_stat t1 = AssemblyError.
Proof.
  do 2 eexists. cbv zeta. split; [ev|]. split; [reflexivity|]. split; [repeat split|]. split; [ev|reflexivity].
Qed.
Print Assumptions C98_crisfield_refuted.
