(** C133: the loops of example_PinchedMembrane_DWR end at the full load *)
From Verif Require Import VS Status RunTac ALMBase ALMBaseProofs ALMStep ALMLog ALMPoints ALMRun ALMVerbose Props_ALMStep Props_ALMPredict ALMSingular APALMSolver ALMLoop Props_ALMLoop ALMLoop2 Props_ALMLoop3 Props_ALMLoop5 ALMLoop6 Props_StaticLoop.
Local Open Scope R_scope.

Section Load.
Context {S : VS} {Mat : Type}.
Variables (p : problem S Mat) (o : opts).
Implicit Types s : st S Mat.
(** With load control the residual is compared with the load of the point found. *)
Lemma load_met s s' : (2 <= o_maxIt o)%nat -> s_guess s = None -> step p o LoadControl s = Ret tt s' -> s_stat s' = Success ->
  exists r, p_residual p (s_U s') (s_L s') = Some r /\ norm r < o_tolF o * norm (s_L s' *v p_F p).
Proof.
  intros Hm G E ST.
  destruct (C24_success_meets_tolerances_partial p o LoadControl s s' Hm E ST) as (evs & u0 & l0 & pts & r & A1 & A2 & A3 & A4 & A5 & A6 & A7).
  exists r. split; [exact A3|].
  destruct (C32_load_control_partial p o s s' Hm G E) as [B _]. specialize (B ST).
  destruct (first_point p o LoadControl s s' u0 l0 (or_introl E)) as (sP & EP & _ & EL & _); [exists evs; eexists; eauto|].
  rewrite predict_noGuess in EP by (rewrite started_guess; exact G). apply load_predictor in EP. destruct EP as [EP _].
  change (s_len (started LoadControl s)) with (s_len s) in EP. replace (s_L s') with l0 by congruence. exact A5.
Qed.
End Load.

Section Full.
Context {S : VS} {Mat : Type}.
Variables (p : problem S Mat) (o1 o2 : opts) (k : kind).
Implicit Types s : st S Mat.
Implicit Types c : wst S Mat.
(** the points reached from the origin by successful steps of the two solvers *)
Inductive reached : S -> R -> Prop :=
  | reached_0 : reached v0 0
  | reached_arc s s' : reached (s_U s) (s_L s) -> step p o1 k s = Ret tt s' -> s_stat s' = Success -> reached (s_U s') (s_L s')
  | reached_load s s' : reached (s_U s) (s_L s) -> step p o2 LoadControl s = Ret tt s' -> s_stat s' = Success -> reached (s_U s') (s_L s').
Hypothesis M1 : (2 <= o_maxIt o1)%nat. Hypothesis M2 : (2 <= o_maxIt o2)%nat.

Record ainv c : Prop := {
  av_U : s_U (w_s c) = w_U c; av_L : s_L (w_s c) = w_L c; av_g : s_guess (w_s c) = None; av_in : s_initialized (w_s c) = true; av_r : reached (w_U c) (w_L c) }.
Definition aend c : Prop := wMore (w_Lo c) = true /\ reached (w_Uo c) (w_Lo c).
Lemma ainv_pass c c' : ainv c -> wMore (w_L c) = true -> arcPass p o1 k c = WNext c' -> ainv c' /\ aend c'.
Proof.
  intros [A1 A2 A3 A4 A5] W. unfold arcPass. destruct (step p o1 k (setLength (w_dL c) (w_s c))) as [[] s|] eqn:E; [|discriminate].
  pose proof (step_guess p o1 k (setLength (w_dL c) (w_s c)) A3) as G. rewrite E in G. cbn in G. pose proof (step_init p o1 k _ _ E) as IN.
  change (s_initialized (setLength (w_dL c) (w_s c))) with (s_initialized (w_s c)) in IN. rewrite A4 in IN.
  destruct (s_conv s) eqn:EC; cbn [negb]; intros H; injection H as <-.
  - assert (ST : s_stat s = Success) by (apply (C116_converged_is_success_partial p o1 k (setLength (w_dL c) (w_s c)) s A4 M1 E); exact EC).
    split; [|split; cbn; assumption]. constructor; cbn; auto.
    apply (reached_arc (setLength (w_dL c) (w_s c)) s); [|exact E|exact ST].
    change (reached (s_U (w_s c)) (s_L (w_s c))). rewrite A1, A2. exact A5.
  - split; [constructor; cbn; auto|split; cbn; assumption].
Qed.
Lemma ainv_run : forall fuel c c', ainv c -> wMore (w_L c) = true \/ aend c -> wRun (arcPass p o1 k) fuel c = WNext c' -> aend c'.
Proof.
  induction fuel as [|fuel IH]; intros c c' A B R; cbn [wRun] in R; destruct (wMore (w_L c)) eqn:W; try discriminate R;
    try (injection R as <-; destruct B as [B|B]; [discriminate B|exact B]).
  destruct (arcPass p o1 k c) as [c1|] eqn:E; [|discriminate R]. destruct (ainv_pass _ _ A W E) as (A1 & B1). exact (IH _ _ A1 (or_intror B1) R).
Qed.

Record linv c : Prop := {
  lv_U : s_U (w_s c) = w_Uo c; lv_L : s_L (w_s c) = w_Lo c; lv_g : s_guess (w_s c) = None; lv_in : s_initialized (w_s c) = true;
  lv_r : reached (w_Uo c) (w_Lo c); lv_o : w_L c = w_Lo c; lv_1 : w_L c <= 1; lv_d0 : w_dL0 c = 1 - w_L c; lv_d : 0 <= w_dL c <= 1 - w_L c }.
Definition lend c : Prop := w_U c = w_Uo c /\ exists r, p_residual p (w_U c) (w_L c) = Some r /\ norm r < o_tolF o2 * norm (w_L c *v p_F p).
Lemma lpass_conv c s : linv c -> step p o2 LoadControl (setLength (w_dL c) (w_s c)) = Ret tt s -> s_conv s = true ->
  let d := 1 - (w_L c + w_dL c) in
  loadPass p o2 c = WNext (mkW s d d (s_U s) (s_L s) (s_U s) (s_L s) (Datatypes.S (w_k c))) /\ s_L s = w_L c + w_dL c /\
  linv (mkW s d d (s_U s) (s_L s) (s_U s) (s_L s) (Datatypes.S (w_k c))) /\ lend (mkW s d d (s_U s) (s_L s) (s_U s) (s_L s) (Datatypes.S (w_k c))).
Proof.
  intros [A1 A2 A3 A4 A5 A6 A7 A8 A9] E EC d. set (t := setLength (w_dL c) (w_s c)) in *.
  assert (ST : s_stat s = Success) by (apply (C116_converged_is_success_partial p o2 LoadControl t s A4 M2 E); exact EC).
  destruct (C32_load_control_partial p o2 t s M2 A3 E) as [Q _]. specialize (Q ST). change (s_L t) with (s_L (w_s c)) in Q. change (s_len t) with (w_dL c) in Q.
  rewrite A2, <- A6 in Q.
  pose proof (step_guess p o2 LoadControl t A3) as G. rewrite E in G. cbn in G. pose proof (step_init p o2 LoadControl _ _ E) as IN.
  change (s_initialized t) with (s_initialized (w_s c)) in IN. rewrite A4 in IN.
  split; [|split; [exact Q|split]].
  - unfold loadPass. fold t. rewrite E, EC. cbn [negb]. cbv zeta.
    rewrite Rmin_left by (rewrite A8, Q; lra). rewrite (proj2 (Rltb_false _ _)) by lra. rewrite Q. reflexivity.
  - constructor; cbn; auto; try (unfold d; rewrite ?Q; lra).
    apply (reached_load t s); [|exact E|exact ST]. change (reached (s_U (w_s c)) (s_L (w_s c))). rewrite A1, A2. exact A5.
  - split; [reflexivity|]. cbn. exact (load_met p o2 t s M2 A3 E ST).
Qed.
Lemma lpass_fail c s : linv c -> step p o2 LoadControl (setLength (w_dL c) (w_s c)) = Ret tt s -> s_conv s = false ->
  let c' := mkW (setSolution (w_Uo c) (w_Lo c) (setLength (w_dL c / 2) s)) (w_dL c / 2) (w_dL0 c) (w_U c) (w_L c) (w_Uo c) (w_Lo c) (w_k c) in
  loadPass p o2 c = WNext c' /\ linv c'.
Proof.
  intros [A1 A2 A3 A4 A5 A6 A7 A8 A9] E EC c'. set (t := setLength (w_dL c) (w_s c)) in *.
  pose proof (step_guess p o2 LoadControl t A3) as G. rewrite E in G. cbn in G. pose proof (step_init p o2 LoadControl _ _ E) as IN.
  change (s_initialized t) with (s_initialized (w_s c)) in IN. rewrite A4 in IN.
  split; [unfold loadPass; fold t; rewrite E, EC; reflexivity|]. constructor; cbn; auto; lra.
Qed.
Lemma linv_run : forall fuel c c', linv c -> wMore (w_L c) = true \/ lend c -> wRun (loadPass p o2) fuel c = WNext c' -> linv c' /\ lend c' /\ wMore (w_L c') = false.
Proof.
  induction fuel as [|fuel IH]; intros c c' A B R; cbn [wRun] in R; destruct (wMore (w_L c)) eqn:W; try discriminate R;
    try (injection R as <-; destruct B as [B|B]; [discriminate B|split; [exact A|split; [exact B|exact W]]]).
  destruct (loadPass p o2 c) as [c1|] eqn:E; [|discriminate R].
  destruct (step p o2 LoadControl (setLength (w_dL c) (w_s c))) as [[] s|] eqn:ES; [|unfold loadPass in E; rewrite ES in E; discriminate].
  destruct (s_conv s) eqn:EC.
  - destruct (lpass_conv c s A ES EC) as (P & _ & L1 & L2). rewrite E in P. injection P as ->. exact (IH _ _ L1 (or_intror L2) R).
  - destruct (lpass_fail c s A ES EC) as (P & L1). rewrite E in P. injection P as ->. exact (IH _ _ L1 (or_introl W) R).
Qed.
Lemma more_spec l : wMore l = true <-> l < 1 /\ / 10 ^ 14 < Rabs (l - 1).
Proof. unfold wMore. rewrite andb_true_iff, !Rltb_true. tauto. Qed.
Lemma switch_inv s c : s_initialized s = true -> s_guess s = None -> aend c -> linv (wSwitch s c) /\ wMore (w_L (wSwitch s c)) = true.
Proof.
  intros HI HG (A & B). unfold wSwitch. split; [|exact A]. apply more_spec in A. constructor; cbn; auto; lra.
Qed.
(** ** C133, end of the second loop *)
(** the states in which the condition of the second loop is tested *)
Inductive lpasses (c0 : wst S Mat) : wst S Mat -> Prop :=
  | lpasses_0 : lpasses c0 c0
  | lpasses_S c c' : lpasses c0 c -> wMore (w_L c) = true -> loadPass p o2 c = WNext c' -> lpasses c0 c'.
Variables (eps : R) (c0 : wst S Mat).
Hypothesis He : 0 < eps.
Hypothesis Hs : forall c, lpasses c0 c -> wMore (w_L c) = true ->
  exists s', step p o2 LoadControl (setLength (w_dL c) (w_s c)) = Ret tt s' /\ (w_dL c <= eps -> s_conv s' = true).
Lemma done_run fuel c : wMore (w_L c) = false -> wRun (loadPass p o2) fuel c = WNext c.
Proof. intros W. destruct fuel; cbn [wRun]; rewrite W; reflexivity. Qed.
Lemma big_pow x : exists r : nat, x <= 2 ^ r * eps.
Proof.
  destruct (archimed_nat (x / eps)) as (n & H). exists n. assert (N : INR n <= 2 ^ n).
  { clear. induction n as [|n IH]; [cbn; lra|]. rewrite S_INR. cbn [pow]. assert (1 <= 2 ^ n) by (apply pow_R1_Rle; lra). lra. }
  apply Rmult_le_reg_r with (/ eps); [apply Rinv_0_lt_compat; lra|]. unfold Rdiv in H. replace (2 ^ n * eps * / eps) with (2 ^ n) by (field; lra). lra.
Qed.
Lemma load_ends : forall n r c, lpasses c0 c -> linv c -> 1 - w_L c <= INR n * (eps / 2) -> w_dL c <= 2 ^ r * eps -> w_dL c = 1 - w_L c \/ eps / 2 <= w_dL c ->
  exists fuel c', wRun (loadPass p o2) fuel c = WNext c'.
Proof.
  induction n as [|n IHn].
  - intros r c P A N R D. exists 0%nat, c. apply done_run. destruct (wMore (w_L c)) eqn:W; [|reflexivity]. apply more_spec in W. cbn in N. lra.
  - induction r as [|r IHr]; intros c P A N R D; (destruct (wMore (w_L c)) eqn:W; [|exists 0%nat, c; apply done_run; exact W]);
      destruct (Hs c P W) as (s & E & HC); destruct (s_conv s) eqn:EC.
    1,3: destruct (lpass_conv c s A E EC) as (Q & QL & A' & _); pose proof (lpasses_S _ _ _ P W Q) as P';
      match type of Q with _ = WNext ?x => set (c1 := x) in * end;
      assert (Z : exists fuel c', wRun (loadPass p o2) fuel c1 = WNext c');
      [destruct D as [D|D];
        [exists 0%nat, c1; apply done_run; destruct (wMore (w_L c1)) eqn:W1; [|reflexivity]; apply more_spec in W1; unfold c1 in W1; cbn in W1; rewrite QL in W1; lra
        |destruct (big_pow (w_dL c1)) as (r1 & R1); apply (IHn r1 c1 P' A'); [unfold c1; cbn [w_L]; rewrite QL; rewrite S_INR in N; lra|exact R1|left; unfold c1; cbn [w_dL w_L]; rewrite QL; ring]]
      |destruct Z as (fuel & c' & Z); exists (Datatypes.S fuel), c'; cbn [wRun]; rewrite W, Q; exact Z].
    + cbn in R. discriminate (HC ltac:(lra)).
    + destruct (lpass_fail c s A E EC) as (Q & A').
      assert (L : eps < w_dL c) by (destruct (Rle_lt_dec (w_dL c) eps) as [L|L]; [discriminate (HC L)|exact L]).
      match type of Q with _ = WNext ?x => destruct (IHr x) as (fuel & c' & Z) end.
      * exact (lpasses_S _ _ _ P W Q).
      * exact A'.
      * cbn [w_L]. exact N.
      * cbn [w_dL]. cbn [pow] in R. lra.
      * right. cbn [w_dL]. lra.
      * exists (Datatypes.S fuel), c'. cbn [wRun]. rewrite W, Q. exact Z.
Qed.
End Full.
(** When both loops end, the solution used is a point at the full load: the load factor is 1 up to 1e-14 (and not
    above), the point is reached from the origin by successful steps only, and the residual there is
    within the tolerance. *)
Theorem C133_full_load {S : VS} {Mat : Type} (p : problem S Mat) (o1 o2 : opts) (k : kind) (dL : R) (f1 f2 : nat) (s1 s2 : st S Mat) (c : wst S Mat) :
  (2 <= o_maxIt o1)%nat -> (2 <= o_maxIt o2)%nat -> s_initialized s1 = true -> s_initialized s2 = true -> s_guess s1 = None -> s_guess s2 = None ->
  s_U s1 = v0 -> s_L s1 = 0 -> wMain p o1 o2 k dL f1 f2 s1 s2 = WNext c ->
  1 - / 10 ^ 14 <= w_L c <= 1 /\ reached p o1 o2 k (w_U c) (w_L c) /\
  exists r, p_residual p (w_U c) (w_L c) = Some r /\ norm r < o_tolF o2 * norm (w_L c *v p_F p).
Proof.
  intros M1 M2 I1 I2 G1 G2 U1 L1 H. unfold wMain in H.
  destruct (wRun (arcPass p o1 k) f1 (mkW s1 dL dL v0 0 v0 0 0)) as [c1|] eqn:E; [|discriminate].
  apply (ainv_run p o1 o2 k M1) in E.
  - destruct (switch_inv p o1 o2 k s2 c1 I2 G2 E) as (A & W).
    destruct (linv_run p o1 o2 k M2 _ _ _ A (or_introl W) H) as (B & (C1 & C2) & W').
    split; [|split; [|exact C2]].
    + destruct B as [_ _ _ _ _ _ B _ _]. split; [|exact B]. destruct (Rle_lt_dec (1 - / 10 ^ 14) (w_L c)) as [Q|Q]; [exact Q|].
      assert (P : 0 < / 10 ^ 14) by (apply Rinv_0_lt_compat, pow_lt; lra). rewrite (proj2 (more_spec _)) in W'; [discriminate|].
      rewrite Rabs_left by lra. lra.
    + rewrite C1. destruct B as [_ _ _ _ B B' _ _ _]. rewrite B'. exact B.
  - constructor; cbn; auto. constructor.
  - left. apply more_spec. cbn [w_L]. replace (0 - 1) with (- (1)) by ring. rewrite Rabs_Ropp, Rabs_R1. split; [lra|].
    rewrite <- Rinv_1 at 1. apply Rinv_lt_contravar; [rewrite Rmult_1_l; apply pow_lt; lra|]. apply Rlt_pow_R1; [lra|lia].
Qed.
Print Assumptions C133_full_load.
(** The second loop ends when steps short enough converge. *)
Theorem C133_terminates {S : VS} {Mat : Type} (p : problem S Mat) (o1 o2 : opts) (k : kind) (dL eps : R) (f1 : nat) (s1 s2 : st S Mat) (c1 : wst S Mat) :
  (2 <= o_maxIt o1)%nat -> (2 <= o_maxIt o2)%nat -> s_initialized s1 = true -> s_initialized s2 = true -> s_guess s1 = None -> s_guess s2 = None ->
  s_U s1 = v0 -> s_L s1 = 0 -> wRun (arcPass p o1 k) f1 (mkW s1 dL dL v0 0 v0 0 0) = WNext c1 -> 0 < eps ->
  (forall c, lpasses p o2 (wSwitch s2 c1) c -> wMore (w_L c) = true ->
    exists s', step p o2 LoadControl (setLength (w_dL c) (w_s c)) = Ret tt s' /\ (w_dL c <= eps -> s_conv s' = true)) ->
  exists f2 c, wMain p o1 o2 k dL f1 f2 s1 s2 = WNext c.
Proof.
  intros M1 M2 I1 I2 G1 G2 U1 L1 E He Hs. unfold wMain. rewrite E.
  apply (ainv_run p o1 o2 k M1) in E.
  - destruct (switch_inv p o1 o2 k s2 c1 I2 G2 E) as (A & W).
    destruct (archimed_nat ((1 - w_L (wSwitch s2 c1)) / (eps / 2))) as (n & N). destruct (big_pow eps He (w_dL (wSwitch s2 c1))) as (r & R).
    apply (load_ends p o1 o2 k M2 eps (wSwitch s2 c1) He Hs n r); [constructor|exact A| |exact R|left; reflexivity].
    apply Rmult_le_reg_r with (/ (eps / 2)); [apply Rinv_0_lt_compat; lra|]. unfold Rdiv in N at 1. replace (INR n * (eps / 2) * / (eps / 2)) with (INR n) by (field; lra). lra.
  - constructor; cbn; auto. constructor.
  - left. apply more_spec. cbn [w_L]. replace (0 - 1) with (- (1)) by ring. rewrite Rabs_Ropp, Rabs_R1. split; [lra|].
    rewrite <- Rinv_1 at 1. apply Rinv_lt_contravar; [rewrite Rmult_1_l; apply pow_lt; lra|]. apply Rlt_pow_R1; [lra|lia].
Qed.
Print Assumptions C133_terminates.
(** A spring of stiffness 1 up to the displacement 1/4 and 3 beyond, whose assembly fails beyond 3/4. In the first loop (here with load
    control, which can be evaluated in rational numbers) the step of length 1 fails, the one of length 1/2 ends in (1/3, 1/2), and the next one of
    length 1 passes the full load and ends in (2/3, 3/2). The second loop goes from (1/3, 1/2) to the full load, (1/2, 1). *)
Definition stiffening : problem VS_R R := @mkProblem VS_R R
  (fun u l => if Rltb (3/4) u then None else if Rltb (1/4) u then Some (3 * u - 1/2 - l) else Some (u - l))
  (fun u _ => if Rltb (1/4) u then Some 3 else Some 1) (fun _ => true)
  (fun m f => Some (f / m)) (fun m x => m * x) (fun m => [m]) (fun m => Some [m]) 1 1 1.
Lemma w_step {S : VS} {Mat} (pass : wst S Mat -> wpass S Mat) fuel c c1 r : w_L c <= 1/2 -> pass c = WNext c1 -> wRun pass fuel c1 = r -> wRun pass (Datatypes.S fuel) c = r.
Proof.
  intros H E <-. cbn [wRun]. rewrite (proj2 (more_spec _)), E; [reflexivity|]. split; [lra|]. rewrite Rabs_left by lra.
  assert (P : 10 ^ 1 < 10 ^ 14) by (apply Rlt_pow; [lra|lia]). assert (0 < 10 ^ 14) by (apply pow_lt; lra).
  assert (/ 10 ^ 14 < / 10 ^ 1) by (apply Rinv_lt_contravar; [apply Rmult_lt_0_compat; lra|exact P]). rewrite pow_1 in *. lra.
Qed.
Lemma w_done {S : VS} {Mat} (pass : wst S Mat -> wpass S Mat) fuel c : 1 <= w_L c -> wRun pass fuel c = WNext c.
Proof. intros H. assert (W : wMore (w_L c) = false) by (destruct (wMore (w_L c)) eqn:W; [apply more_spec in W; lra|reflexivity]). destruct fuel; cbn [wRun]; rewrite W; reflexivity. Qed.
Lemma arc_ok {S : VS} {Mat} (p : problem S Mat) o k c s : step p o k (setLength (w_dL c) (w_s c)) = Ret tt s -> s_conv s = true ->
  arcPass p o k c = WNext (mkW s (w_dL0 c) (w_dL0 c) (s_U s) (s_L s) (w_U c) (w_L c) (Datatypes.S (w_k c))).
Proof. intros E C. unfold arcPass. rewrite E, C. reflexivity. Qed.
Lemma arc_no {S : VS} {Mat} (p : problem S Mat) o k c s : step p o k (setLength (w_dL c) (w_s c)) = Ret tt s -> s_conv s = false ->
  arcPass p o k c = WNext (mkW (setSolution (w_U c) (w_L c) (setLength (w_dL c / 2) s)) (w_dL c / 2) (w_dL0 c) (w_U c) (w_L c) (w_U c) (w_L c) (w_k c)).
Proof. intros E C. unfold arcPass. rewrite E, C. reflexivity. Qed.
Lemma load_ok {S : VS} {Mat} (p : problem S Mat) o c s : step p o LoadControl (setLength (w_dL c) (w_s c)) = Ret tt s -> s_conv s = true ->
  let d := Rmin (1 - s_L s) (w_dL0 c) in let d := if Rltb (1 - s_L s) d then 1 - s_L s else d in
  loadPass p o c = WNext (mkW s d d (s_U s) (s_L s) (s_U s) (s_L s) (Datatypes.S (w_k c))).
Proof. intros E C. unfold loadPass. rewrite E, C. reflexivity. Qed.
Lemma stiff_arc : exists c, wRun (arcPass stiffening (exOpts 5) LoadControl) 3 (mkW (exSt VS_R R 1) 1 1 (v0 : VS_R) 0 (v0 : VS_R) 0 0) = WNext c /\ w_Uo c = 1/3 /\ w_Lo c = 1/2 /\ w_L c = 3/2 /\ w_k c = 2%nat.
Proof.
  eexists. split; [|split; [|split; [|split]]].
  - eapply w_step; [cbn; lra|eapply arc_no; [cbn [w_s w_dL]; ev|reflexivity]|].
    eapply w_step; [cbn; lra|eapply arc_ok; [cbn [w_s w_dL w_U w_L w_dL0]; ev|reflexivity]|].
    eapply w_step; [cbn; lra|eapply arc_ok; [cbn [w_s w_dL w_U w_L w_dL0]; ev|reflexivity]|].
    apply w_done. cbn. lra.
  - rcbv. lra.
  - rcbv. lra.
  - rcbv. lra.
  - reflexivity.
Qed.
Lemma stiff_load s d d0 l : exists s', step stiffening (exOpts 5) LoadControl (setLength (w_dL (wSwitch (exSt VS_R R 1) (mkW s d d0 l (3/2) (1/3 : VS_R) (1/2) 2))) (w_s (wSwitch (exSt VS_R R 1) (mkW s d d0 l (3/2) (1/3 : VS_R) (1/2) 2)))) = Ret tt s' /\
  s_conv s' = true /\ s_U s' = 1/2 /\ s_L s' = 1.
Proof.
  unfold wSwitch. cbn [w_Uo w_Lo w_U w_k w_dL w_s]. eexists. split; [ev|]. split; [reflexivity|]. split; rcbv; lra.
Qed.
Example C133_example : exists c, wMain stiffening (exOpts 5) (exOpts 5) LoadControl 1 3 1 (exSt VS_R R 1) (exSt VS_R R 1) = WNext c /\ w_U c = 1/2 /\ w_L c = 1 /\ w_k c = 3%nat.
Proof.
  destruct stiff_arc as ((s, d, d0, u, l, u0, l0, n) & A & Q1 & Q2 & Q3 & Q4). cbn in Q1, Q2, Q3, Q4. subst. unfold wMain. rewrite A. clear A.
  destruct (stiff_load s d d0 u) as (s' & E & C & EU & EL). eexists. split; [|split; [|split]].
  - eapply w_step; [cbn; lra|eapply load_ok; [exact E|exact C]|]. apply w_done. cbn. lra.
  - exact EU.
  - exact EL.
  - reflexivity.
Qed.
Lemma one_pass {S : VS} {Mat} (p : problem S Mat) o eps c0 s' : step p o LoadControl (setLength (w_dL c0) (w_s c0)) = Ret tt s' -> s_conv s' = true -> s_L s' = 1 ->
  forall c, lpasses p o c0 c -> wMore (w_L c) = true -> exists s', step p o LoadControl (setLength (w_dL c) (w_s c)) = Ret tt s' /\ (w_dL c <= eps -> s_conv s' = true).
Proof.
  intros E C EL c P. assert (Z : c = c0 \/ w_L c = 1).
  { induction P as [|c c' P IH W Q]; [left; reflexivity|]. destruct IH as [->|IH]; [|apply more_spec in W; lra].
    right. unfold loadPass in Q. rewrite E, C in Q. injection Q as <-. exact EL. }
  intros W. destruct Z as [->|Z]; [exists s'; split; [exact E|intros _; exact C]|apply more_spec in W; lra].
Qed.
(** the hypotheses of C133_terminates *)
Example C133_terminates_example : exists c1, wRun (arcPass stiffening (exOpts 5) LoadControl) 3 (mkW (exSt VS_R R 1) 1 1 (v0 : VS_R) 0 (v0 : VS_R) 0 0) = WNext c1 /\
  forall c, lpasses stiffening (exOpts 5) (wSwitch (exSt VS_R R 1) c1) c -> wMore (w_L c) = true ->
    exists s', step stiffening (exOpts 5) LoadControl (setLength (w_dL c) (w_s c)) = Ret tt s' /\ (w_dL c <= 1/2 -> s_conv s' = true).
Proof.
  destruct stiff_arc as ((s, d, d0, u, l, u0, l0, n) & A & Q1 & Q2 & Q3 & Q4). cbn in Q1, Q2, Q3, Q4. subst.
  exists (mkW s d d0 u (3/2) (1/3 : VS_R) (1/2) 2). split; [exact A|]. clear A.
  destruct (stiff_load s d d0 u) as (s' & E & C & EU & EL). exact (one_pass stiffening (exOpts 5) (1/2) _ s' E C EL).
Qed.
