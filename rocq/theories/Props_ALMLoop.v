(** The load-stepping loop of the programs: C114, C115. *)
From Verif Require Import VS Status RunTac ALMBase ALMBaseProofs ALMStep ALMLog ALMPoints ALMRun APALMSolver NewtonConv Props_Static6 Props_ALMStep Props_ALMConverge Props_ALMConverge2 ALMLoop.
Local Open Scope R_scope.

(** ** C114: what is written *)
Section Safe.
Context {S : VS} {Mat : Type}.
Variables (p : problem S Mat) (o : opts) (k : kind) (dLb0 : R).
Implicit Types s : st S Mat.
(** a step of length l from the point a that is not repeated, ends with the status t at the point b *)
Definition stepTo (a b : S * R) (l : R) (t : status) : Prop := exists s s', s_U s = fst a /\ s_L s = snd a /\ s_len s = l /\ s_guess s = None /\ s_initialized s = true /\
  step p o k s = Ret tt s' /\ s_stat s' = t /\ t <> NotConverged /\ t <> AssemblyError /\ b = (s_U s', s_L s').
(** the points of a list are joined by such steps, whose lengths are dLb0 or dLb0 halved *)
Inductive chain (a : S * R) : list (S * R) -> S * R -> Prop :=
  | chain_nil : chain a [] a
  | chain_snoc l b c j t : chain a l b -> stepTo b c (dLb0 / 2 ^ j) t -> chain a (l ++ [c]) c.
Record inv (a : S * R) (c : cst S Mat) : Prop := {
  iv_n : length (c_out c) = c_k c; iv_ch : chain a (c_out c) (c_U c, c_L c); iv_U : s_U (c_s c) = c_U c; iv_L : s_L (c_s c) = c_L c;
  iv_len : s_len (c_s c) = c_dLb c; iv_ad : s_adaptive (c_s c) = false; iv_g : s_guess (c_s c) = None; iv_in : s_initialized (c_s c) = true; iv_pow : exists j : nat, c_dLb c = dLb0 / 2 ^ j }.
Lemma half_pow (j : nat) : dLb0 / 2 ^ j / 2 = dLb0 / 2 ^ Datatypes.S j.
Proof. cbn [pow]. field. apply pow_nonzero. lra. Qed.
Lemma step_init s s' : step p o k s = Ret tt s' -> s_initialized s' = s_initialized s.
Proof.
  intros H. destruct (step_outcome p o k s s' H) as [(A & K)|[(A & _ & K)|(A & _ & sP & sI & sJ & s1 & s7 & C & ->)]]; [injection K; congruence|injection K; congruence|].
  destruct C as [_ C1 (C2 & _) C3 _ _ _ _ F]. pose proof (keepOk (S:=S) (Mat:=Mat) keep3 _ sI _ _ (iteration_keep p o k sI) C1) as K.
  apply keep43 in C3. rewrite K in C3. apply keep32, keep21 in C3. rewrite C2 in C3. injection C3. intros.
  destruct (finished_UL o k s1 s7 F) as (_ & _ & _ & _ & _ & _ & _ & _ & _ & _ & _ & _ & _ & _ & E1 & _). cbn. congruence.
Qed.
Lemma inv_pass a c c' : inv a c -> contPass p o k dLb0 c = Next c' -> inv a c'.
Proof.
  intros [I1 I2 I3 I4 I5 I6 I7 I9 (j & I8)]. unfold contPass. destruct (step p o k (c_s c)) as [[] s|] eqn:E; [|discriminate].
  destruct (C26_length_factor p o k _ _ E) as (A1 & A2 & _). specialize (A2 I6). rewrite I6 in A1.
  pose proof (step_guess p o k (c_s c) I7) as G. rewrite E in G. cbn in G. pose proof (step_init _ _ E) as IN. rewrite I9 in IN.
  destruct (repeats (s_stat s)) eqn:ER; intros H; injection H as <-.
  - constructor; cbn; auto. exists (Datatypes.S j). rewrite I8. apply half_pow.
  - assert (ST : stepTo (c_U c, c_L c) (s_U s, s_L s) (dLb0 / 2 ^ j) (s_stat s)).
    { exists (c_s c), s. rewrite <- I8. repeat split; auto; intros Z; rewrite Z in ER; discriminate. }
    constructor; cbn.
    + rewrite app_length, I1. cbn. lia.
    + exact (chain_snoc a _ _ _ j _ I2 ST).
    + destruct (c_bis c); reflexivity.
    + destruct (c_bis c); reflexivity.
    + destruct (c_bis c); [congruence|reflexivity].
    + destruct (c_bis c); cbn; congruence.
    + destruct (c_bis c); cbn; exact G.
    + destruct (c_bis c); cbn; exact IN.
    + destruct (c_bis c); [exists j; exact I8|exists 0%nat; cbn; field].
Qed.
Lemma inv_run a steps : forall fuel c c', inv a c -> contRun p o k dLb0 steps fuel c = Next c' -> inv a c' /\ (steps <= c_k c')%nat /\ ((c_k c <= steps)%nat -> c_k c' = steps).
Proof.
  induction fuel as [|fuel IH]; intros c c' I R; cbn [contRun] in R; destruct (Nat.ltb_spec (c_k c) steps) as [H|H]; try discriminate R; try (injection R as <-; split; [exact I|split; lia]).
  destruct (contPass p o k dLb0 c) as [c1|] eqn:E; [|discriminate R]. destruct (IH _ _ (inv_pass _ _ _ I E) R) as (A & B & C). split; [exact A|]. split; [exact B|]. intros _. apply C.
  unfold contPass in E. destruct (step p o k (c_s c)) as [[] s|]; [|discriminate]. destruct (repeats (s_stat s)); injection E as <-; cbn; lia.
Qed.
(** the next point is the end of a step that succeeded within the tolerances; under load control
    the load has grown by the length of the step *)
Inductive chainOk (a : S * R) : list (S * R) -> S * R -> Prop :=
  | chainOk_nil : chainOk a [] a
  | chainOk_snoc l u0 l0 u1 l1 j s s' evs v m pts r : chainOk a l (u0, l0) ->
      s_U s = u0 -> s_L s = l0 -> s_len s = dLb0 / 2 ^ j -> step p o k s = Ret tt s' -> s_stat s' = Success -> s_U s' = u1 -> s_L s' = l1 ->
      (* (v, m) is the trial point of the step, and (u1, l1) its last point *)
      s_log s' = s_log s ++ evs -> points evs = (v, m) :: pts ++ [(u1, l1)] ->
      p_residual p u1 l1 = Some r -> norm r < o_tolF o * norm (m *v p_F p) -> norm (u1 -v fst (last pts (v, m))) < o_tolU o * norm (v -v u0) ->
      (k = LoadControl -> l1 = l0 + dLb0 / 2 ^ j) -> chainOk a (l ++ [(u1, l1)]) (u1, l1).
Lemma solveFailed_app (l1 l2 : list (event S Mat)) : ~ solveFailed (l1 ++ l2) -> ~ solveFailed l1 /\ ~ solveFailed l2.
Proof.
  unfold solveFailed. intros H. split; intros [(m & Q)|(m & f & Q)]; apply H; [left; exists m|right; exists m, f|left; exists m|right; exists m, f]; apply in_or_app; auto.
Qed.
Definition inv2 a s0 (c : cst S Mat) : Prop := inv a c /\ exists evs, s_log (c_s c) = s_log s0 ++ evs /\ (~ solveFailed evs -> chainOk a (c_out c) (c_U c, c_L c)).
Lemma inv2_pass a s0 c c' : wellPosed p o -> (2 <= o_maxIt o)%nat -> inv2 a s0 c -> contPass p o k dLb0 c = Next c' -> inv2 a s0 c'.
Proof.
  intros WP HM [I (evs & EL & CH)] E. split; [exact (inv_pass _ _ _ I E)|]. destruct I as [I1 I2 I3 I4 I5 I6 I7 I9 (j & I8)].
  unfold contPass in E. destruct (step p o k (c_s c)) as [[] s|] eqn:ES; [|discriminate].
  destruct (C25_status_kind_partial p o k (c_s c) WP I9) as (ev1 & L1 & _ & C). rewrite ES in L1, C. cbn in L1. destruct C as (_ & C1 & _ & _ & _ & C2 & C3).
  destruct (repeats (s_stat s)) eqn:ER; injection E as <-; cbn; exists (evs ++ ev1).
  - split; [rewrite L1, EL, app_assoc; reflexivity|]. intros H. apply CH. apply (solveFailed_app _ _ H).
  - split; [destruct (c_bis c); cbn; rewrite L1, EL, app_assoc; reflexivity|]. intros H. apply solveFailed_app in H. destruct H as [H1 H2].
    assert (ST : s_stat s = Success) by (destruct (s_stat s); try reflexivity; try discriminate; exfalso; tauto).
    destruct (C24_success_meets_tolerances_partial p o k _ s HM ES ST) as (ev2 & v & m & pts & r & Q1 & Q2 & Q3 & Q4 & Q5 & Q6 & Q7).
    eapply chainOk_snoc with (s := c_s c) (s' := s) (j := j); try eassumption; try reflexivity; [exact (CH H1)|congruence|rewrite <- I3; exact Q7|].
    intros ->. destruct (C32_load_control_partial p o (c_s c) s HM I7 ES) as [Q _]. rewrite (Q ST), I4, I5, I8. reflexivity.
Qed.
Lemma inv2_run a s0 steps : wellPosed p o -> (2 <= o_maxIt o)%nat -> forall fuel c c', inv2 a s0 c -> contRun p o k dLb0 steps fuel c = Next c' -> inv2 a s0 c'.
Proof.
  intros WP HM. induction fuel as [|fuel IH]; intros c c' I R; cbn [contRun] in R; destruct (c_k c <? steps)%nat; try discriminate R; try (injection R as <-; exact I).
  destruct (contPass p o k dLb0 c) as [c1|] eqn:E; [|discriminate R]. exact (IH _ _ (inv2_pass _ _ _ _ WP HM I E) R).
Qed.
End Safe.
(** The loop writes exactly [steps] points. Each is the end of a step from the point written before
    it (the first from the origin), by a length that is dLb or dLb halved. *)
Theorem C114_points {S : VS} {Mat : Type} (p : problem S Mat) (o : opts) (k : kind) (dLb : R) (steps fuel : nat) (s : st S Mat) (c : cst S Mat) :
  s_initialized s = true -> s_U s = v0 -> s_L s = 0 -> s_len s = dLb -> s_adaptive s = false -> s_guess s = None ->
  contMain p o k dLb steps fuel s = Next c ->
  length (c_out c) = steps /\ chain p o k dLb (v0, 0) (c_out c) (c_U c, c_L c) /\ s_U (c_s c) = c_U c /\ s_L (c_s c) = c_L c.
Proof.
  intros HI HU HL HN HA HG H. destruct (inv_run p o k dLb (v0, 0) steps fuel (contInit dLb s) c) as (I & K1 & K2); [|exact H|].
  - constructor; cbn; auto; [constructor|exists 0%nat; cbn; field].
  - cbn in K2. specialize (K2 ltac:(lia)). destruct I. repeat split; congruence.
Qed.
Print Assumptions C114_points.
(** If moreover no factorisation and no linear solve failed, every point written is the end of a
    step that succeeded within the tolerances. *)
Theorem C114_tolerances_partial {S : VS} {Mat : Type} (p : problem S Mat) (o : opts) (k : kind) (dLb : R) (steps fuel : nat) (s : st S Mat) (c : cst S Mat) :
  wellPosed p o -> (2 <= o_maxIt o)%nat ->
  s_initialized s = true -> s_U s = v0 -> s_L s = 0 -> s_len s = dLb -> s_adaptive s = false -> s_guess s = None ->
  contMain p o k dLb steps fuel s = Next c ->
  exists evs, s_log (c_s c) = s_log s ++ evs /\ (~ solveFailed evs -> chainOk p o k dLb (v0, 0) (c_out c) (c_U c, c_L c)).
Proof.
  intros WP HM HI HU HL HN HA HG H. apply (inv2_run p o k dLb (v0, 0) s steps WP HM fuel (contInit dLb s) c); [|exact H].
  split; [constructor; cbn; auto; [constructor|exists 0%nat; cbn; field]|]. exists []. split; [symmetry; apply app_nil_r|]. intros _. constructor.
Qed.
Print Assumptions C114_tolerances_partial.
(** evaluation of the loop *)
Lemma run_again {S : VS} {Mat} (p : problem S Mat) o k dLb0 steps fuel c s r : (c_k c < steps)%nat -> step p o k (c_s c) = Ret tt s -> repeats (s_stat s) = true ->
  contRun p o k dLb0 steps fuel (mkC (setSolution (c_U c) (c_L c) (setLength (c_dLb c / 2) s)) (c_dLb c / 2) (c_U c) (c_L c) true (c_k c) (c_out c)) = r ->
  contRun p o k dLb0 steps (Datatypes.S fuel) c = r.
Proof. intros H E T <-. cbn [contRun]. rewrite (proj2 (Nat.ltb_lt _ _) H). unfold contPass. rewrite E, T. reflexivity. Qed.
Lemma run_accept {S : VS} {Mat} (p : problem S Mat) o k dLb0 steps fuel c s r : (c_k c < steps)%nat -> step p o k (c_s c) = Ret tt s -> repeats (s_stat s) = false ->
  contRun p o k dLb0 steps fuel (mkC (if c_bis c then s else setLength dLb0 s) (if c_bis c then c_dLb c else dLb0) (s_U s) (s_L s) false (Datatypes.S (c_k c)) (c_out c ++ [(s_U s, s_L s)])) = r ->
  contRun p o k dLb0 steps (Datatypes.S fuel) c = r.
Proof. intros H E T <-. cbn [contRun]. rewrite (proj2 (Nat.ltb_lt _ _) H). unfold contPass. rewrite E, T. destruct (c_bis c); reflexivity. Qed.
Lemma run_done {S : VS} {Mat} (p : problem S Mat) o k dLb0 steps fuel (c : cst S Mat) : (steps <= c_k c)%nat -> contRun p o k dLb0 steps fuel c = Next c.
Proof. intros H. destruct fuel; cbn [contRun]; rewrite (proj2 (Nat.ltb_ge _ _) H); reflexivity. Qed.
Ltac again := eapply run_again; [cbn; lia|cbn [c_s contInit c_U c_L c_bis c_dLb]; ev|reflexivity|].
Ltac accept := eapply run_accept; [cbn; lia|cbn [c_s contInit c_U c_L c_bis c_dLb]; ev|reflexivity|].
(** Without the condition on the solves it is false: a step that ends with SolverError is not
    repeated. Here no factorisation succeeds; the loop ends with the starting point written twice,
    although the residual there is 1. *)
Definition stuck : problem VS_R R := @mkProblem VS_R R
  (fun u l => Some (2 * u - l + 1)) (fun _ _ => Some 2) (fun _ => false)
  (fun m f => Some (f / m)) (fun m x => m * x) (fun m => [m]) (fun m => Some [m]) 1 1 1.
Theorem C114_refuted : exists c, contMain stuck (exOpts 5) LoadControl 3 2 2 (exSt VS_R R 3) = Next c /\
  c_out c = [(0, 0); (0, 0)] /\ s_stat (c_s c) = SolverError /\ p_residual stuck (0 : VS_R) 0 = Some 1.
Proof.
  eexists. split.
  - unfold contMain. accept. accept. apply run_done. cbn. lia.
  - cbn. repeat split. f_equal. lra.
Qed.
Print Assumptions C114_refuted.
(** A spring whose assembly fails beyond u = 1, dLb = 4/3: the lengths tried are 4/3, 4/3, 2/3. *)
Definition limited : problem VS_R R := @mkProblem VS_R R
  (fun u l => if Rltb 1 u then None else Some (2 * u - l)) (fun _ _ => Some 2) (fun _ => true)
  (fun m f => Some (f / m)) (fun m x => m * x) (fun m => [m]) (fun m => Some [m]) 1 1 1.
Example C114_example : exists c, contMain limited (exOpts 5) LoadControl (4/3) 2 3 (exSt VS_R R (4/3)) = Next c /\
  c_out c = [(2/3, 4/3); (1, 2)] /\ wellPosed limited (exOpts 5) /\ ~ solveFailed (s_log (c_s c)).
Proof.
  eexists. split; [|split; [|split]].
  - unfold contMain. accept. again. accept. apply run_done. cbn. lia.
  - rcbv. reflexivity.
  - split; [discriminate|]. split; [intros m l H; injection H as <-; discriminate|]. split; [cbn; lia|discriminate].
  - cbn. intros [(m & H)|(m & f & H)]; repeat (destruct H as [H|H]; [discriminate H|]); exact H.
Qed.
