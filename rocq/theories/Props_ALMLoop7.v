(** C134: the loop of benchmark_Beam, and the loops which stop at the first failed step *)
From Verif Require Import VS Status RunTac ALMBase ALMBaseProofs ALMStep ALMLog ALMPoints ALMRun ALMVerbose Props_ALMStep Props_ALMSingular ALMSingular APALMSolver ALMLoop Props_ALMLoop ALMLoop2 Props_ALMLoop3 Props_ALMLoop6 ALMLoop7.
Local Open Scope R_scope.

(** [s'] is the end of a step from [s] which succeeded within the tolerances; (v, m) is its trial point *)
Definition goodStep {S : VS} {Mat} (p : problem S Mat) (o : opts) (k : kind) (s s' : st S Mat) : Prop :=
  step p o k s = Ret tt s' /\ s_stat s' = Success /\
  exists evs v m pts r, s_log s' = s_log s ++ evs /\ points evs = (v, m) :: pts ++ [(s_U s', s_L s')] /\
    p_residual p (s_U s') (s_L s') = Some r /\ norm r < o_tolF o * norm (m *v p_F p) /\
    norm (s_U s' -v fst (last pts (v, m))) < o_tolU o * norm (v -v s_U s).
Lemma good_step {S : VS} {Mat} (p : problem S Mat) o k s s' : (2 <= o_maxIt o)%nat -> step p o k s = Ret tt s' -> s_stat s' = Success -> goodStep p o k s s'.
Proof.
  intros HM E ST. split; [exact E|]. split; [exact ST|].
  destruct (C24_success_meets_tolerances_partial p o k s s' HM E ST) as (ev & v & m & pts & r & Q1 & Q2 & Q3 & Q4 & Q5 & Q6 & Q7). exists ev, v, m, pts, r. auto 6.
Qed.
(** points from the origin by such steps, the last of length d / 2^j; the lengths never grow *)
Inductive shrinking {S : VS} {Mat} (p : problem S Mat) (o : opts) (k : kind) (d : R) : nat -> list (S * R) -> S * R -> Prop :=
  | shrinking_nil : shrinking p o k d 0 [] (v0, 0)
  | shrinking_snoc i j l s s' : shrinking p o k d i l (s_U s, s_L s) -> (i <= j)%nat -> s_len s = d / 2 ^ j -> goodStep p o k s s' ->
      shrinking p o k d j (l ++ [(s_U s', s_L s')]) (s_U s', s_L s').

Section Beam.
Context {S : VS} {Mat : Type}.
Variables (p : problem S Mat) (o : opts) (k : kind) (quasi : bool) (dL d : R).
Implicit Types s : st S Mat.
Record minv (c : mst S Mat) : Prop := {
  mv_n : length (m_out c) = m_k c; mv_U : s_U (m_s c) = m_U c; mv_L : s_L (m_s c) = m_L c; mv_len : s_len (m_s c) = m_dLb c; mv_ad : s_adaptive (m_s c) = false;
  mv_g : s_guess (m_s c) = None; mv_in : s_initialized (m_s c) = true;
  mv_ch : exists i j, shrinking p o k d i (m_out c) (m_U c, m_L c) /\ (i <= j)%nat /\ m_dLb c = d / 2 ^ j }.
Lemma minv_pass c c' : (2 <= o_maxIt o)%nat -> minv c -> mPass p o k false quasi dL c = MNext c' -> minv c'.
Proof.
  intros HM [I1 I2 I3 I4 I5 I6 I7 (i & j & CH & IJ & LJ)]. unfold mPass. destruct (step p o k (m_s c)) as [[] s|] eqn:E; [|discriminate].
  destruct (C26_length_factor p o k _ _ E) as (A1 & A2 & _). specialize (A2 I5). rewrite I5 in A1.
  pose proof (step_guess p o k (m_s c) I6) as G. rewrite E in G. cbn in G. pose proof (step_init p o k _ _ E) as IN. rewrite I7 in IN.
  destruct (s_conv s) eqn:EC; cbn [negb].
  - cbn [mSingular]. intros H. injection H as <-.
    assert (ST : s_stat s = Success) by (apply (C116_converged_is_success_partial p o k (m_s c) s I7 HM E); exact EC).
    constructor; cbn; auto.
    + rewrite app_length, I1. cbn. lia.
    + congruence.
    + exists j, j. split; [|split; [lia|exact LJ]].
      apply (shrinking_snoc p o k d i j (m_out c) (m_s c) s); [rewrite I2, I3; exact CH|exact IJ|congruence|exact (good_step p o k _ s HM E ST)].
  - intros H. injection H as <-. constructor; cbn; auto.
    exists i, (Datatypes.S j). split; [exact CH|]. split; [lia|]. rewrite LJ. apply half_pow.
Qed.
Lemma minv_run steps : (2 <= o_maxIt o)%nat -> forall fuel c c', minv c -> (m_k c <= steps)%nat -> mRun p o k false quasi dL steps fuel c = MNext c' -> minv c' /\ m_k c' = steps.
Proof.
  intros HM. induction fuel as [|fuel IH]; intros c c' I K R; cbn [mRun] in R; destruct (Nat.ltb_spec (m_k c) steps) as [H|H]; try discriminate R; try (injection R as <-; split; [exact I|lia]).
  destruct (mPass p o k false quasi dL c) as [c1|] eqn:E; [|discriminate R]. apply (IH _ _ (minv_pass _ _ HM I E)); [|exact R].
  unfold mPass in E. destruct (step p o k (m_s c)) as [[] s|]; [|discriminate]. destruct (negb _); [injection E as <-; cbn; lia|]. cbn [mSingular] in E. injection E as <-. cbn. lia.
Qed.
End Beam.
(** Without SingularPoint benchmark_Beam writes exactly [steps] points, each the end of a step from the point before it which succeeded
    within the tolerances, with the length set, halved j times, where j never decreases along the points. *)
Theorem C134_points_partial {S : VS} {Mat : Type} (p : problem S Mat) (o : opts) (k : kind) (quasi : bool) (dL : R) (steps fuel : nat) (s : st S Mat) (c : mst S Mat) :
  (2 <= o_maxIt o)%nat -> s_initialized s = true -> s_U s = v0 -> s_L s = 0 -> s_guess s = None -> s_adaptive s = false ->
  mMain p o k false quasi dL steps fuel s = MNext c ->
  length (m_out c) = steps /\ exists j, shrinking p o k (s_len s) j (m_out c) (s_U (m_s c), s_L (m_s c)).
Proof.
  intros HM HI HU HL HG HA H. unfold mMain in H.
  destruct (minv_run p o k quasi dL (s_len s) steps HM fuel (mkM (setIndicator 0 s) (s_len s) v0 0 0 []) c) as (I & K); [| |exact H|].
  - constructor; cbn; auto. exists 0%nat, 0%nat. split; [constructor|]. split; [lia|]. cbn. field.
  - cbn. lia.
  - destruct I as [I1 I2 I3 _ _ _ _ (i & j & CH & _)]. split; [congruence|]. exists i. rewrite I2, I3. exact CH.
Qed.
Print Assumptions C134_points_partial.

(** ** The loop ends: since the length is never restored, all failures together are at most m. *)
Inductive mpasses {S : VS} {Mat : Type} (p : problem S Mat) (o : opts) (k : kind) (quasi : bool) (dL : R) (steps : nat) (c0 : mst S Mat) : mst S Mat -> Prop :=
  | mpasses_0 : mpasses p o k quasi dL steps c0 c0
  | mpasses_S c c' : mpasses p o k quasi dL steps c0 c -> (m_k c < steps)%nat -> mPass p o k false quasi dL c = MNext c' -> mpasses p o k quasi dL steps c0 c'.
Section End.
Context {S : VS} {Mat : Type}.
Variables (p : problem S Mat) (o : opts) (k : kind) (quasi : bool) (dL eps : R) (steps : nat) (c0 : mst S Mat).
Hypothesis Hs : forall c, mpasses p o k quasi dL steps c0 c -> (m_k c < steps)%nat ->
  exists s', step p o k (m_s c) = Ret tt s' /\ (m_dLb c <= eps -> s_conv s' = true).
Lemma m_ends : forall n r c, mpasses p o k quasi dL steps c0 c -> (m_k c + n = steps)%nat -> m_dLb c <= 2 ^ r * eps ->
  exists c', mRun p o k false quasi dL steps (n + r) c = MNext c'.
Proof.
  induction n as [|n IHn].
  - intros r c P K L. exists c. destruct (0 + r)%nat; cbn [mRun]; rewrite (proj2 (Nat.ltb_ge _ _)) by lia; reflexivity.
  - assert (ACC : forall r c s', mpasses p o k quasi dL steps c0 c -> (m_k c + Datatypes.S n = steps)%nat -> m_dLb c <= 2 ^ r * eps -> step p o k (m_s c) = Ret tt s' -> s_conv s' = true ->
      exists c', mRun p o k false quasi dL steps (Datatypes.S n + r) c = MNext c').
    { intros r c s' P K L E T. eassert (Q : mPass p o k false quasi dL c = MNext _) by (unfold mPass; rewrite E, T; reflexivity).
      destruct (IHn r _ (mpasses_S _ _ _ _ _ _ _ _ _ P ltac:(lia) Q) ltac:(cbn; lia) L) as (c' & C). exists c'.
      cbn [Nat.add mRun]. rewrite (proj2 (Nat.ltb_lt _ _)) by lia. rewrite Q. exact C. }
    induction r as [|r IHr]; intros c P K L; destruct (Hs c P ltac:(lia)) as (s' & E & T).
    + apply (ACC 0%nat c s' P K L E). apply T. cbn in L. lra.
    + destruct (s_conv s') eqn:EC; [exact (ACC _ c s' P K L E EC)|].
      eassert (Q : mPass p o k false quasi dL c = MNext _) by (unfold mPass; rewrite E, EC; reflexivity).
      destruct (IHr _ (mpasses_S _ _ _ _ _ _ _ _ _ P ltac:(lia) Q) ltac:(cbn; lia)) as (c' & C); [cbn [m_dLb]; cbn [pow] in L; lra|].
      exists c'. replace (Datatypes.S n + Datatypes.S r)%nat with (Datatypes.S (Datatypes.S n + r)) by lia.
      cbn [mRun]. rewrite (proj2 (Nat.ltb_lt _ _)) by lia. rewrite Q. exact C.
Qed.
End End.
Theorem C134_terminates {S : VS} {Mat : Type} (p : problem S Mat) (o : opts) (k : kind) (quasi : bool) (dL eps : R) (steps m : nat) (s : st S Mat) :
  s_len s <= 2 ^ m * eps ->
  (forall c, mpasses p o k quasi dL steps (mkM (setIndicator 0 s) (s_len s) v0 0 0 []) c -> (m_k c < steps)%nat ->
    exists s', step p o k (m_s c) = Ret tt s' /\ (m_dLb c <= eps -> s_conv s' = true)) ->
  exists c, mMain p o k false quasi dL steps (steps + m) s = MNext c.
Proof.
  intros HL Hs. unfold mMain. apply (m_ends p o k quasi dL eps steps _ Hs); [constructor|cbn; lia|exact HL].
Qed.
Print Assumptions C134_terminates.

(** ** The programs which stop at the first failed step *)
Inductive evenly {S : VS} {Mat} (p : problem S Mat) (o : opts) (k : kind) (d : R) : list (S * R) -> S * R -> Prop :=
  | evenly_nil : evenly p o k d [] (v0, 0)
  | evenly_snoc l s s' : evenly p o k d l (s_U s, s_L s) -> s_len s = d -> goodStep p o k s s' -> evenly p o k d (l ++ [(s_U s', s_L s')]) (s_U s', s_L s').
(** the points constructed are the ends of successive steps of the length set which succeeded within the tolerances, one for every k *)
Theorem C134_stop_partial {S : VS} {Mat : Type} (p : problem S Mat) (o : opts) (k : kind) (n : nat) (s s' : st S Mat) (l : list (S * R)) :
  (2 <= o_maxIt o)%nat -> s_U s = v0 -> s_L s = 0 -> s_adaptive s = false -> stopRun p o k n s [] = Some (s', l) ->
  length l = n /\ evenly p o k (s_len s) l (s_U s', s_L s').
Proof.
  intros HM HU HL HA.
  assert (G : forall d n t l0, s_adaptive t = false -> s_len t = d -> evenly p o k d l0 (s_U t, s_L t) -> stopRun p o k n t l0 = Some (s', l) -> length l = (length l0 + n)%nat /\ evenly p o k d l (s_U s', s_L s')).
  { clear s HU HL HA n. intros d. induction n as [|n IH]; intros t l0 A L V H; cbn [stopRun] in H.
    - injection H as <- <-. split; [lia|exact V].
    - destruct (step p o k t) as [[] t1|] eqn:E; [|discriminate]. destruct (status_eqb (s_stat t1) Success) eqn:Q; [|discriminate]. apply status_eqb_true in Q.
      destruct (C26_length_factor p o k _ _ E) as (A1 & A2 & _). specialize (A2 A). rewrite A in A1.
      destruct (IH t1 (l0 ++ [(s_U t1, s_L t1)]) A1 ltac:(congruence)) as (X & Y); [|exact H|split; [|exact Y]].
      + apply (evenly_snoc p o k d l0 t t1 V L). exact (good_step p o k t t1 HM E Q).
      + rewrite X, app_length. cbn. lia. }
  intros H. destruct (G (s_len s) n s [] HA eq_refl) as (X & Y); [rewrite HU, HL; constructor|exact H|]. split; [exact X|exact Y].
Qed.
Print Assumptions C134_stop_partial.

(** evaluation of the loop *)
Lemma m_again {S : VS} {Mat} (p : problem S Mat) o k sing quasi dL steps fuel c s r : (m_k c < steps)%nat -> step p o k (m_s c) = Ret tt s -> s_conv s = false ->
  mRun p o k sing quasi dL steps fuel (mkM (setSolution (m_U c) (m_L c) (setLength (m_dLb c / 2) s)) (m_dLb c / 2) (m_U c) (m_L c) (m_k c) (m_out c)) = r ->
  mRun p o k sing quasi dL steps (Datatypes.S fuel) c = r.
Proof. intros H E T <-. cbn [mRun]. rewrite (proj2 (Nat.ltb_lt _ _) H). unfold mPass. rewrite E, T. reflexivity. Qed.
Lemma m_accept {S : VS} {Mat} (p : problem S Mat) o k sing quasi dL steps fuel c s b s2 r : (m_k c < steps)%nat -> step p o k (m_s c) = Ret tt s -> s_conv s = true ->
  mSingular p o k sing quasi (m_U c) (m_L c) s = Ret b s2 ->
  (let s3 := if b then setLength dL s2 else s2 in
   mRun p o k sing quasi dL steps fuel (mkM s3 (if b then dL else m_dLb c) (s_U s3) (s_L s3) (Datatypes.S (m_k c)) (m_out c ++ [(s_U s3, s_L s3)]))) = r ->
  mRun p o k sing quasi dL steps (Datatypes.S fuel) c = r.
Proof. intros H E T Q <-. cbn [mRun]. rewrite (proj2 (Nat.ltb_lt _ _) H). unfold mPass. rewrite E, T. cbn [negb]. rewrite Q. reflexivity. Qed.
Lemma m_done {S : VS} {Mat} (p : problem S Mat) o k sing quasi dL steps fuel (c : mst S Mat) : (steps <= m_k c)%nat -> mRun p o k sing quasi dL steps fuel c = MNext c.
Proof. intros H. destruct fuel; cbn [mRun]; rewrite (proj2 (Nat.ltb_ge _ _) H); reflexivity. Qed.
Ltac magain := eapply m_again; [cbn; lia|cbn [m_s m_U m_L m_dLb]; ev|reflexivity|].
Ltac maccept := eapply m_accept; [cbn; lia|cbn [m_s m_U m_L m_dLb]; ev|reflexivity|unfold mSingular; cbv beta iota; cbn [m_s m_U m_L m_dLb]; first [ev|reflexivity]|cbv zeta].
(** The stiffening spring of C133 with the length 1: after the failure of the first step the length stays 1/2, *)
Example C134_example : exists c, mMain stiffening (exOpts 5) LoadControl false false 7 2 3 (exSt VS_R R 1) = MNext c /\ m_out c = [(1/3, 1/2); (1/2, 1)].
Proof.
  eexists. split.
  - unfold mMain. magain. maccept. maccept. apply m_done. cbn. lia.
  - rcbv. repeat f_equal; lra.
Qed.
(** and with SingularPoint, or with MaxIter = 1 in the programs which stop at the first failure, the claim is false. The spring of negative stiffness of C117 with
    SingularPoint: after the first step the stability has changed, the search goes back to the origin, and switchBranch() moves away from
    it; the point written has the displacement 1 and the load 0, its residual is -2. The spring of C24 with MaxIter = 1: the point written is the origin. *)
Theorem C134_refuted :
  (exists c u, mMain inverted (exOpts 5) LoadControl true false 1 1 1 (exSt VS_R R 1) = MNext c /\ m_out c = [(u, 0)] /\ Rabs u = 1 /\
     p_residual inverted u 0 = Some (-2 * u - 0)) /\
  (exists s, stopRun exSpring (exOpts 1) LoadControl 1 (exSt VS_R R 3) [] = Some (s, [(0, 0)])).
Proof.
  split.
  - eexists. eexists. split; [|split].
    + unfold mMain. maccept. apply m_done. cbn. lia.
    + rcbv. reflexivity.
    + rcbv. split; [|reflexivity]. first [rewrite Rabs_right by lra; lra|rewrite Rabs_left by lra; lra].
  - assert (E : exists s, step exSpring (exOpts 1) LoadControl (exSt VS_R R 3) = Ret tt s /\ s_stat s = Success /\ s_U s = 0 /\ s_L s = 0).
    { eexists. split; [ev|]. rcbv. repeat split; lra. }
    destruct E as (s & E & T & U & L). exists s. cbn [stopRun]. rewrite E, T. cbn. rewrite U, L. reflexivity.
Qed.
Print Assumptions C134_refuted.
(** the programs which stop at the first failure, two steps *)
Example C134_stop_example : exists s, stopRun stiffening (exOpts 5) LoadControl 2 (exSt VS_R R (1/2)) [] = Some (s, [(1/3, 1/2); (1/2, 1)]).
Proof.
  assert (E : exists s, step stiffening (exOpts 5) LoadControl (exSt VS_R R (1/2)) = Ret tt s /\ s_stat s = Success /\ s_U s = 1/3 /\ s_L s = 1/2 /\
    exists s2, step stiffening (exOpts 5) LoadControl s = Ret tt s2 /\ s_stat s2 = Success /\ s_U s2 = 1/2 /\ s_L s2 = 1).
  { eexists. split; [ev|]. split; [reflexivity|]. split; [rcbv; lra|]. split; [rcbv; lra|]. eexists. split; [ev|]. split; [reflexivity|]. split; rcbv; lra. }
  destruct E as (s & E & T & U & L & s2 & E2 & T2 & U2 & L2). exists s2. cbn [stopRun]. rewrite E, T. cbn [status_eqb stopRun]. rewrite E2, T2. cbn [status_eqb stopRun app]. rewrite U, L, U2, L2. reflexivity.
Qed.
(** the hypotheses of C134_terminates: one failed step of length 1, then one of length 1/2 which converges *)
Lemma fail_then_converge {S : VS} {Mat} (p : problem S Mat) o k quasi dL eps c0 c1 s1 s2 : step p o k (m_s c0) = Ret tt s1 -> eps < m_dLb c0 ->
  mPass p o k false quasi dL c0 = MNext c1 -> step p o k (m_s c1) = Ret tt s2 -> s_conv s2 = true ->
  forall c, mpasses p o k quasi dL 1 c0 c -> (m_k c < 1)%nat -> exists s', step p o k (m_s c) = Ret tt s' /\ (m_dLb c <= eps -> s_conv s' = true).
Proof.
  intros E1 L P1 E2 T2 c P.
  assert (Z : c = c0 \/ c = c1 \/ (1 <= m_k c)%nat).
  { induction P as [|c c' P IH W Q]; [left; reflexivity|]. destruct IH as [->|[->|IH]]; [| |lia].
    - right. left. congruence.
    - right. right. unfold mPass in Q. rewrite E2, T2 in Q. cbn [negb mSingular] in Q. injection Q as <-. cbn [m_k]. lia. }
  intros W. destruct Z as [->|[->|Z]]; [exists s1; split; [exact E1|intros Z; exfalso; lra]|exists s2; split; [exact E2|intros _; exact T2]|lia].
Qed.
Lemma mPass_fail {S : VS} {Mat} (p : problem S Mat) o k quasi dL c s1 : step p o k (m_s c) = Ret tt s1 -> s_conv s1 = false ->
  mPass p o k false quasi dL c = MNext (mkM (setSolution (m_U c) (m_L c) (setLength (m_dLb c / 2) s1)) (m_dLb c / 2) (m_U c) (m_L c) (m_k c) (m_out c)).
Proof. intros E T. unfold mPass. rewrite E, T. reflexivity. Qed.
Lemma stiff_beam : exists s1, step stiffening (exOpts 5) LoadControl (setIndicator 0 (exSt VS_R R 1)) = Ret tt s1 /\ s_conv s1 = false /\
    exists s2, step stiffening (exOpts 5) LoadControl (setSolution (v0 : VS_R) 0 (setLength (1 / 2) s1)) = Ret tt s2 /\ s_conv s2 = true.
Proof. eexists. split; [ev|]. split; [reflexivity|]. eexists. split; [ev|]. reflexivity. Qed.
Example C134_terminates_example : s_len (exSt VS_R R 1) <= 2 ^ 1 * (1/2) /\
  forall c, mpasses stiffening (exOpts 5) LoadControl false 1 1 (mkM (setIndicator 0 (exSt VS_R R 1)) (s_len (exSt VS_R R 1)) (v0 : VS_R) 0 0 []) c -> (m_k c < 1)%nat ->
    exists s', step stiffening (exOpts 5) LoadControl (m_s c) = Ret tt s' /\ (m_dLb c <= 1/2 -> s_conv s' = true).
Proof.
  split; [cbn; lra|]. destruct stiff_beam as (s1 & E1 & T1 & s2 & E2 & T2).
  pose proof (mPass_fail stiffening (exOpts 5) LoadControl false 1 (mkM (setIndicator 0 (exSt VS_R R 1)) (s_len (exSt VS_R R 1)) (v0 : VS_R) 0 0 []) s1 E1 T1) as P1.
  eapply fail_then_converge; [exact E1| |exact P1|exact E2|exact T2]. cbn. lra.
Qed.
