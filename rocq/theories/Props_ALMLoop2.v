(** The load-stepping loop of the programs ends: C115. *)
From Verif Require Import VS Status RunTac ALMBase ALMBaseProofs ALMStep ALMLog ALMPoints ALMRun APALMSolver NewtonConv Props_Static6 Props_ALMStep Props_ALMConverge Props_ALMConverge2 ALMLoop Props_ALMLoop.
Local Open Scope R_scope.

(** the states in which a pass of the loop starts *)
Inductive passes {S : VS} {Mat : Type} (p : problem S Mat) (o : opts) (k : kind) (dLb0 : R) (c0 : cst S Mat) : cst S Mat -> Prop :=
  | passes_0 : passes p o k dLb0 c0 c0
  | passes_S c c' : passes p o k dLb0 c0 c -> contPass p o k dLb0 c = Next c' -> passes p o k dLb0 c0 c'.

Section End_.
Context {S : VS} {Mat : Type}.
Variables (p : problem S Mat) (o : opts) (k : kind) (dLb0 eps : R) (steps m : nat) (c0 : cst S Mat).
Hypothesis Hd : 0 < dLb0. Hypothesis He : dLb0 <= 2 ^ m * eps.
Hypothesis Hs : forall c, passes p o k dLb0 c0 c -> (c_k c < steps)%nat ->
  exists s', step p o k (c_s c) = Ret tt s' /\ (c_dLb c <= eps -> repeats (s_stat s') = false).
Lemma run_more : forall f1 f2 c c', (f1 <= f2)%nat -> contRun p o k dLb0 steps f1 c = Next c' -> contRun p o k dLb0 steps f2 c = Next c'.
Proof.
  clear. induction f1 as [|f1 IH]; intros f2 c c' H R.
  - cbn [contRun] in R. destruct (Nat.ltb_spec (c_k c) steps); [discriminate|]. injection R as <-. apply run_done. lia.
  - destruct f2 as [|f2]; [lia|]. cbn [contRun] in *. destruct (c_k c <? steps)%nat; [|exact R]. destruct (contPass p o k dLb0 c); [|exact R]. apply (IH f2); [lia|exact R].
Qed.
(** [r] repetitions are left before the length is below eps; [n] points are missing *)
Lemma run_ends : forall n r c, passes p o k dLb0 c0 c -> (c_k c + n = steps)%nat -> (r <= m)%nat -> c_dLb c <= 2 ^ r * eps ->
  exists c', contRun p o k dLb0 steps (n * Datatypes.S m - (m - r)) c = Next c'.
Proof.
  induction n as [|n IHn].
  - intros r c P K R L. exists c. apply run_done. lia.
  - assert (ACC : forall r c s', passes p o k dLb0 c0 c -> (c_k c + Datatypes.S n = steps)%nat -> (r <= m)%nat -> c_dLb c <= 2 ^ r * eps ->
      step p o k (c_s c) = Ret tt s' -> repeats (s_stat s') = false -> exists c', contRun p o k dLb0 steps (Datatypes.S (n * Datatypes.S m)) c = Next c').
    { intros r c s' P K R L E T.
      assert (PS : contPass p o k dLb0 c = Next (mkC (if c_bis c then s' else setLength dLb0 s') (if c_bis c then c_dLb c else dLb0) (s_U s') (s_L s') false (Datatypes.S (c_k c)) (c_out c ++ [(s_U s', s_L s')]))) by (unfold contPass; rewrite E, T; destruct (c_bis c); reflexivity).
      assert (G : exists r', (r' <= m)%nat /\ (if c_bis c then c_dLb c else dLb0) <= 2 ^ r' * eps) by (destruct (c_bis c); [exists r; split; [lia|exact L]|exists m; split; [lia|exact He]]).
      destruct G as (r' & Hr' & G). destruct (IHn r' _ (passes_S _ _ _ _ _ _ _ P PS) ltac:(cbn; lia) Hr' G) as (c' & C).
      exists c'. eapply run_accept; [lia|exact E|exact T|]. eapply run_more; [|exact C]. lia. }
    induction r as [|r IHr]; intros c P K R L.
    + destruct (Hs c P ltac:(lia)) as (s' & E & T). cbn in L. specialize (T ltac:(lra)). destruct (ACC 0%nat c s' P K R ltac:(cbn; lra) E T) as (c' & C).
      exists c'. eapply run_more; [|exact C]. lia.
    + destruct (Hs c P ltac:(lia)) as (s' & E & _). destruct (repeats (s_stat s')) eqn:T.
      * assert (PS : contPass p o k dLb0 c = Next (mkC (setSolution (c_U c) (c_L c) (setLength (c_dLb c / 2) s')) (c_dLb c / 2) (c_U c) (c_L c) true (c_k c) (c_out c))) by (unfold contPass; rewrite E, T; reflexivity).
        destruct (IHr _ (passes_S _ _ _ _ _ _ _ P PS) ltac:(cbn; lia) ltac:(lia)) as (c' & C); [cbn [c_dLb]; cbn [pow] in L; lra|].
        exists c'. replace (Datatypes.S n * Datatypes.S m - (m - Datatypes.S r))%nat with (Datatypes.S (Datatypes.S n * Datatypes.S m - (m - r))) by lia.
        eapply run_again; [lia|exact E|exact T|exact C].
      * destruct (ACC _ c s' P K R L E T) as (c' & C). exists c'. eapply run_more; [|exact C]. lia.
Qed.
End End_.
(** If every step made ends normally, and is not repeated once its length is at most eps, the loop
    ends after at most steps * (m + 1) passes, where dLb <= 2^m eps. *)
Theorem C115_terminates {S : VS} {Mat : Type} (p : problem S Mat) (o : opts) (k : kind) (dLb eps : R) (steps m : nat) (s : st S Mat) :
  0 < dLb -> dLb <= 2 ^ m * eps ->
  (forall c, passes p o k dLb (contInit dLb s) c -> (c_k c < steps)%nat ->
    exists s', step p o k (c_s c) = Ret tt s' /\ (c_dLb c <= eps -> repeats (s_stat s') = false)) ->
  exists c, contMain p o k dLb steps (steps * (m + 1)) s = Next c.
Proof.
  intros Hd He Hs. destruct (run_ends p o k dLb eps steps m (contInit dLb s) He Hs steps m (contInit dLb s)) as (c & C); [constructor|reflexivity|lia|exact He|].
  exists c. unfold contMain. replace (steps * (m + 1))%nat with (steps * Datatypes.S m - (m - m))%nat by lia. exact C.
Qed.
Print Assumptions C115_terminates.
(** ** No step of load control ends with an undefined value *)
Section Lc.
Context {S : VS} {Mat : Type}.
Variables (p : problem S Mat) (o : opts).
Implicit Types s : st S Mat.
Definition nn {A} (x : out S Mat A) : Prop := match x with Exc ENaN _ => False | _ => True end.
Lemma nn_bind {A B} (x : out S Mat A) (f : A -> st S Mat -> out S Mat B) : nn x -> (forall a s, nn (f a s)) -> nn (obind x f).
Proof. destruct x as [a s|e s]; cbn; auto. Qed.
Lemma nn_residual s : nn (computeResidual p s).
Proof. unfold computeResidual, computeResidualAt. cbv zeta. destruct (p_residual _ _ _); exact I. Qed.
Lemma nn_factor m s : nn (factorizeMatrix p m s).
Proof. unfold factorizeMatrix. cbv zeta. destruct (p_factor p m); exact I. Qed.
Lemma nn_solve f s : nn (solveSystem p f s).
Proof. unfold solveSystem. destruct (s_fact s); [|exact I]. cbv zeta. destruct (p_solve _ _ _); exact I. Qed.
Lemma nn_jac s : nn (stepJacobian p s).
Proof. unfold stepJacobian, refreshJacobian, computeJacobianAt. cbv zeta. apply nn_bind; [|intros; apply nn_factor]. destruct (p_jacobian _ _ _); [|exact I]. apply nn_bind; [apply nn_factor|intros; exact I]. Qed.
Lemma nn_stab s : nn (computeStability p o false s).
Proof.
  assert (H : nn (computeStability_ p o (s_U s) false s)).
  { unfold computeStability_. cbn [obind]. apply nn_bind; [|intros; cbv zeta; destruct (minCoeff _); exact I].
    unfold stabilityVec. destruct (o_bif o); try exact I.
    - destruct (o_ldlt o); [|exact I]. destruct (s_jac s); [|exact I]. apply nn_bind; [apply nn_factor|intros; exact I].
    - destruct (s_jac s); [|exact I]. cbv zeta. destruct (p_eig _ _); exact I. }
  unfold computeStability. destruct (computeStability_ _ _ _ _ _) as [|e s']; [exact I|]. destruct e; try exact I; try exact H. cbn. repeat (match goal with |- context [match ?z with _ => _ end] => destruct z end; try exact I).
Qed.
Lemma nn_ubar s : nn (computeUbar p s).
Proof. apply nn_bind; [apply nn_solve|intros; exact I]. Qed.
Lemma nn_ut s : nn (computeUt p s).
Proof. apply nn_bind; [apply nn_solve|intros; exact I]. Qed.
Lemma nn_quasi s : nn (quasiNewtonIteration p LoadControl s).
Proof. apply nn_bind; [apply nn_jac|intros; exact I]. Qed.
Lemma nn_predict s : nn (predict p o LoadControl s).
Proof.
  assert (H : forall s, nn (predictor p o LoadControl s)) by (intros; apply nn_bind; [apply nn_jac|intros; apply nn_bind; [apply nn_ut|intros; exact I]]).
  unfold predict. destruct (s_guess s) as [[ug lg]|]; [|apply H]. destruct (_ && _); [|apply H]. apply nn_bind; [apply nn_jac|intros; apply nn_bind; [apply nn_ut|intros; exact I]].
Qed.
Lemma nn_loop : forall n i s, nn (stepLoop p o LoadControl n i s).
Proof.
  induction n as [|n IH]; intros i s; [exact I|]. rewrite stepLoop_S. cbv zeta. apply nn_bind; [destruct (newJacobian _ _); [apply nn_quasi|exact I]|]. intros _ s1.
  apply nn_bind; [apply nn_bind; [apply nn_ubar|intros; exact I]|]. intros _ s2. apply nn_bind; [apply nn_stab|]. intros _ s3. apply nn_bind; [apply nn_residual|]. intros _ s4.
  apply nn_bind; [destruct (o_verbose o); [apply nn_stab|exact I]|]. intros _ s5. destruct (convergedTest _ _).
  - destruct (s_adaptive _); [|exact I]. unfold computeLength. destruct (Nat.eqb _ _); exact I.
  - destruct n; [exact I|apply IH].
Qed.
(** a step of load control always ends with a status *)
Lemma load_total s : wellPosed p o -> s_initialized s = true -> exists s', step p o LoadControl s = Ret tt s'.
Proof.
  intros WP HI. destruct (C25_status_kind_partial p o LoadControl s WP HI) as (evs & _ & _ & C).
  assert (N : nn (step p o LoadControl s)).
  { assert (H : nn (step_ p o LoadControl s)).
    { unfold step_. destruct (negb _); [exact I|]. cbv zeta. apply nn_bind; [apply nn_predict|]. intros _ s1. apply nn_bind; [apply nn_residual|]. intros _ s2.
      apply nn_bind; [destruct (o_verbose o); [apply nn_stab|exact I]|]. intros _ s3. apply nn_bind; [|intros; apply nn_loop].
      destruct (o_quasi o); [|exact I]. apply nn_bind; [apply nn_quasi|intros; apply nn_ubar]. }
    unfold step. destruct (step_ _ _ _ _) as [|e s']; [exact I|]. destruct e; try exact I; try exact H. cbn. repeat (match goal with |- context [match ?z with _ => _ end] => destruct z end; try exact I). }
  destruct (step p o LoadControl s) as [[] s'|e s']; [exists s'; reflexivity|]. subst e. destruct N.
Qed.
End Lc.
(** Under load control, from a regular equilibrium at the origin, the first point is written
    whatever the length dLb: the length is halved until the step succeeds. If no linear solve fails
    the point is within the tolerance on the force, at the load dLb / 2^j. *)
Theorem C115_first_point {S : VS} {Mat : Type} (p : problem S Mat) (o : opts) (res : S -> R -> S) (mt : Mat) (rho beta gamma dLb : R) (s : st S Mat) :
  o_quasi o = false -> stabReady p o -> wellPosed p o -> (2 <= o_maxIt o)%nat -> 0 < o_tolF o -> 0 < o_tolU o -> p_F p <> v0 ->
  res v0 0 = v0 -> 0 < rho -> 0 <= beta -> 0 <= gamma -> regularALM p LoadControl res v0 0 v0 0 rho beta gamma -> (forall du, p_jacobian p v0 du = Some mt) ->
  0 < dLb -> s_initialized s = true -> s_U s = v0 -> s_L s = 0 -> s_len s = dLb -> s_adaptive s = false -> s_guess s = None ->
  exists fuel c u l evs, contMain p o LoadControl dLb 1 fuel s = Next c /\ c_out c = [(u, l)] /\ s_log (c_s c) = s_log s ++ evs /\
    (~ solveFailed evs -> (exists j : nat, l = dLb / 2 ^ j) /\ exists r m, p_residual p u l = Some r /\ norm r < o_tolF o * norm (m *v p_F p)).
Proof.
  intros HQ SR0 WP HM TF TU NF EQ Hr Hb Hg RG HJ Hd HI HU HL HE HA HG.
  destruct (C113_short_load_steps p o res v0 0 mt rho beta gamma HQ SR0 HM TF TU NF EQ Hr Hb Hg RG HJ) as (eps & Pe & C).
  assert (MM : exists m : nat, dLb <= 2 ^ m * eps).
  { destruct (Pow_x_infinity 2 ltac:(rewrite Rabs_pos_eq; lra) (dLb / eps)) as (m & Hm). exists m. specialize (Hm m (le_n m)). rewrite Rabs_pos_eq in Hm by (apply pow_le; lra).
    apply (Rmult_le_reg_r (/ eps)); [apply Rinv_0_lt_compat; lra|]. rewrite Rmult_assoc, Rinv_r, Rmult_1_r by lra. lra. }
  destruct MM as (m & Hm).
  destruct (C115_terminates p o LoadControl dLb eps 1 m s Hd Hm) as (c & R).
  - assert (IV : forall c, passes p o LoadControl dLb (contInit dLb s) c -> inv p o LoadControl dLb (v0, 0) c /\ 0 < c_dLb c <= dLb /\ ((c_k c < 1)%nat -> c_U c = v0 /\ c_L c = 0)).
    { intros c P. induction P as [|c c' P IH PS].
      - split; [constructor; cbn; auto; [constructor|exists 0%nat; cbn; field]|]. cbn. repeat split; lra.
      - destruct IH as (I & (L1 & L2) & Z). split; [exact (inv_pass _ _ _ _ _ _ _ I PS)|]. unfold contPass in PS. destruct (step p o LoadControl (c_s c)) as [[] s'|]; [|discriminate].
        destruct (repeats (s_stat s')); injection PS as <-; cbn; [split; [lra|exact Z]|]. split; [destruct (c_bis c); lra|lia]. }
    intros c P K. destruct (IV c P) as (I & (L1 & L2) & Z). destruct (Z K) as [Z1 Z2]. destruct I as [I1 I2 I3 I4 I5 I6 I7 I9 I8].
    destruct (load_total p o (c_s c) WP I9) as (s' & E). exists s'. split; [exact E|]. intros LE.
    destruct (C (c_s c)) as (s2 & E2 & ST & _); try congruence; [rewrite I5; lra|]. rewrite E in E2. injection E2 as <-. rewrite ST. reflexivity.
  - destruct (C114_points p o LoadControl dLb 1 (1 * (m + 1)) s c HI HU HL HE HA HG R) as (LE & _).
    destruct (C114_tolerances_partial p o LoadControl dLb 1 (1 * (m + 1)) s c WP HM HI HU HL HE HA HG R) as (evs & EL & CH).
    destruct (c_out c) as [|[u l] [|? ?]] eqn:EO; try discriminate. exists (1 * (m + 1))%nat, c, u, l, evs. split; [exact R|]. split; [exact EO|]. split; [exact EL|]. intros NS. specialize (CH NS).
    inversion CH as [|l1 u0 l0 u1 l2 j s1 s2 ev2 v mm pts r CC A1 A2 A3 A4 A5 A6 A7 A8 A9 A10 A11 A12 A13 Q1 Q2]. destruct l1 as [|z l1]; [|destruct l1; discriminate Q1]. cbn in Q1. injection Q1 as -> ->.
    inversion CC as [X1 X2|]; [|destruct l1; discriminate]. subst u0 l0. split; [exists j; pose proof (A13 eq_refl); lra|]. exists r, mm. subst u l. split; [exact A10|exact A11].
Qed.
Print Assumptions C115_first_point.
(** the spring whose assembly fails beyond u = 1 (C114) is regular at rest *)
Lemma limited_regular : regularALM limited LoadControl (fun u l => 2 * u - l : VS_R) (0 : VS_R) 0 v0 0 (1/2) 4 0.
Proof.
  assert (NB : forall D : VS_prod VS_R VS_R, norm (D -v v0) <= 1/2 -> Rabs (fst D - 0) <= 1/2) by (intros D HD; pose proof (norm_1 (S := VS_R) (D -v v0)) as H1; rewrite norm_R in H1; pose proof (Rle_trans _ _ _ H1 HD) as Z; destruct D as [a b]; cbn in *; unfold Rminus; eapply Rle_trans; [|exact Z]; right; f_equal; ring).
    split; [intros D HD; specialize (NB D HD); apply Rabs_both in NB; destruct D as [a b]; change R in a, b; cbn in *; rewrite (proj2 (Rltb_false _ _)) by lra; reflexivity|]. intros D du HD. pose proof (NB D HD) as A1. clear HD. destruct D as [a b]. cbn in A1. apply Rabs_both in A1.
    change R in a, b. cbn [fst snd]. exists 2.
    split; [reflexivity|]. split; [reflexivity|]. split; [split; intros; cbn; ring|].
    split; [intros f; exists (f / 2); split; [reflexivity|cbn; field]|]. split.
    - intros [x y]. change R in x, y. cbn [fst snd]. match goal with |- _ <= 4 * norm ?z => pose proof (norm_1 (S := VS_R) z) as H1; pose proof (norm_2 (S := VS_R) z) as H2; set (n := @norm (VS_prod VS_R VS_R) z) in * end.
      eapply Rle_trans; [apply (norm_pair (S := VS_R))|]. rewrite norm_R in *. cbn in H1, H2. match type of H1 with Rabs ?z <= _ => set (y1 := z) in * end.
      assert (X : x * 2 = y1 + y) by (unfold y1; ring).
      assert (B1 : Rabs x * 2 <= n + n).
      { replace (Rabs x * 2) with (Rabs (x * 2)) by (rewrite Rabs_mult, (Rabs_pos_eq 2) by lra; reflexivity). rewrite X. eapply Rle_trans; [apply Rabs_triang|]. lra. }
      pose proof (Rabs_pos y1). lra.
    - intros [x y] HX. change R in x, y. rewrite norm_R. cbn [fst snd]. 
      match goal with |- Rabs ?z <= _ => replace z with 0 by (cbn; ring) end. rewrite Rabs_R0. lra.
Qed.
(** so the first point is written for every dLb *)
Example C115_example (dLb : R) : 0 < dLb -> exists fuel c u l, contMain limited (exOpts 5) LoadControl dLb 1 fuel (exSt VS_R R dLb) = Next c /\ c_out c = [(u, l)].
Proof.
  intros Hd.
  destruct (C115_first_point limited (exOpts 5) (fun u l => 2 * u - l : VS_R) 2 (1/2) 4 0 dLb (exSt VS_R R dLb)) as (fuel & c & u & l & _ & E & EO & _);
    [reflexivity|split; [discriminate|discriminate|discriminate|intros m l H; injection H as <-; discriminate]|split; [discriminate|]; split; [intros m l H; injection H as <-; discriminate|]; split; [cbn; lia|discriminate]
    |cbn; lia|cbn; lra|cbn; lra|cbn; lra|cbn; ring|lra|lra|lra|exact limited_regular|reflexivity|exact Hd|reflexivity..|].
  exists fuel, c, u, l. split; [exact E|exact EO].
Qed.
