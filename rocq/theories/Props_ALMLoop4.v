(** The load-stepping loop of the programs with SingularPoint: C126. *)
From Verif Require Import VS Status RunTac ALMBase ALMBaseProofs ALMStep ALMLog ALMPoints ALMRun ALMSingular ALMLoop ALMLoop2 ALMLoop4 Props_ALMStep Props_ALMSingular Props_ALMLoop Props_ALMLoop3.
Local Open Scope R_scope.

(** ** C126 *)
Section Written.
Context {S : VS} {Mat : Type}.
Variables (p : problem S Mat) (o : opts) (k : kind) (quasi : bool) (dL : R).
(** [b] is the end of a step from [a] that is not repeated, and the stability did not change *)
Definition stepEnd (a b : S * R) : Prop := exists s s', s_U s = fst a /\ s_L s = snd a /\ step p o k s = Ret tt s' /\ repeats (s_stat s') = false /\ b = (s_U s', s_L s').
(** [b] is the point found by the search from [a] (the point [a] itself if the test did not find a bifurcation), moved by 1/tau along the mode *)
Definition switched (a b : S * R) : Prop := exists t t', computeSingularPoint p o k (fst a) (snd a) false false true t = Ret tt t' /\
  snd b = s_L t' /\ (fst b = s_U t' \/ norm (fst b -v s_U t') = 1 / Rabs (o_tau o)).
Inductive path (a : S * R) : list (S * R) -> S * R -> Prop :=
  | path_nil : path a [] a
  | path_snoc l b c : path a l b -> stepEnd b c \/ switched b c -> path a (l ++ [c]) c.
Lemma switch_move (s s' : st S Mat) : switchBranch o s = Ret tt s' -> s_L s' = s_L s /\ (s_U s' = s_U s \/ norm (s_U s' -v s_U s) = 1 / Rabs (o_tau o)).
Proof.
  intros H. assert (HT : o_tau o <> 0). { intros Z. unfold switchBranch in H. cbv zeta in H. unfold rdiv in H. rewrite (proj2 (Reqb_true _ _) Z) in H. discriminate. }
  destruct (Req_dec (norm (s_Vm s)) 0) as [Z|Z].
  - unfold switchBranch in H. cbv zeta in H. unfold rdiv in H. rewrite (proj2 (Reqb_false _ _) HT) in H. apply (f_equal outSt) in H. cbn in H. subst s'. cbn.
    split; [reflexivity|]. left. apply norm_zero in Z. rewrite Z, normalize_zero. vring.
  - destruct (C37_switch_branch o s HT ltac:(rewrite <- norm_zero; exact Z)) as (t & E & _ & A & B & _). rewrite H in E. injection E as <-. auto.
Qed.
Record binv (a : S * R) (b : bst S Mat) : Prop := { bv_n : length (c_out (b_c b)) = c_k (b_c b); bv_p : path a (c_out (b_c b)) (c_U (b_c b), c_L (b_c b));
  bv_U : s_U (c_s (b_c b)) = c_U (b_c b); bv_L : s_L (c_s (b_c b)) = c_L (b_c b) }.
Lemma binv_pass a b b' : binv a b -> bifPass p o k quasi dL b = BNext b' -> binv a b'.
Proof.
  intros [I1 I2 I3 I4]. unfold bifPass. cbv zeta. destruct (step p o k (c_s (b_c b))) as [[] s|] eqn:E; [|discriminate].
  destruct (repeats (s_stat s)) eqn:ER; [intros H; injection H as <-; constructor; cbn; auto|].
  unfold bifSearch. pose proof (computeStability_keep p o quasi s) as K. destruct (computeStability p o quasi s) as [a1 s1|]; [|discriminate]. cbn [obind].
  assert (KU : s_U s1 = s_U s /\ s_L s1 = s_L s) by (cbn in K; unfold keep4 in K; injection K; auto).
  destruct (stabilityChange s1).
  - destruct (computeSingularPoint p o k (c_U (b_c b)) (c_L (b_c b)) false false true s1) as [[] t|] eqn:EC; [|discriminate]. cbn [obind].
    destruct (switchBranch o t) as [[] t'|] eqn:ES; [|discriminate]. cbn [obind]. intros H. injection H as <-. destruct (switch_move _ _ ES) as (A1 & A2).
    constructor; cbn; [rewrite app_length, I1; cbn; lia| |destruct (c_bis (b_c b)); reflexivity..].
    apply (path_snoc a _ _ _ I2). right. exists s1, t. cbn. auto.
  - intros H. injection H as <-. destruct KU as (K1 & K2).
    constructor; cbn; [rewrite app_length, I1; cbn; lia| |destruct (c_bis (b_c b)); reflexivity..].
    apply (path_snoc a _ _ _ I2). left. exists (c_s (b_c b)), s. cbn. rewrite K1, K2. auto.
Qed.
Lemma binv_run a steps : forall fuel b b', binv a b -> bifRun p o k quasi dL steps fuel b = BNext b' -> binv a b' /\ (steps <= c_k (b_c b'))%nat /\ ((c_k (b_c b) <= steps)%nat -> c_k (b_c b') = steps).
Proof.
  induction fuel as [|fuel IH]; intros c c' I R; cbn [bifRun] in R; destruct (Nat.ltb_spec (c_k (b_c c)) steps) as [H|H]; try discriminate R; try (injection R as <-; split; [exact I|split; lia]).
  destruct (bifPass p o k quasi dL c) as [c1|] eqn:E; [|discriminate R]. destruct (IH _ _ (binv_pass _ _ _ I E) R) as (A & B & C). split; [exact A|]. split; [exact B|]. intros _. apply C.
  unfold bifPass in E. cbv zeta in E. destruct (step p o k (c_s (b_c c))) as [[] s|]; [|discriminate]. destruct (repeats (s_stat s)); [injection E as <-; cbn; lia|].
  destruct (bifSearch p o k quasi (c_U (b_c c)) (c_L (b_c c)) s); [|discriminate]. injection E as <-; cbn; lia.
Qed.
End Written.
(** With SingularPoint the loop writes exactly [steps] points. Each is the end of a step from the point written before it, or, where
    the stability has changed, the point the search from the point before has found, moved by 1/tau. *)
Theorem C126_points_partial {S : VS} {Mat : Type} (p : problem S Mat) (o : opts) (k : kind) (quasi : bool) (dL dLb : R) (steps fuel : nat) (s : st S Mat) (b : bst S Mat) :
  s_U s = v0 -> s_L s = 0 -> bifMain p o k quasi dL dLb steps fuel s = BNext b ->
  length (c_out (b_c b)) = steps /\ path p o k (v0, 0) (c_out (b_c b)) (c_U (b_c b), c_L (b_c b)).
Proof.
  intros HU HL H. unfold bifMain in H. destruct (binv_run p o k quasi dL (v0, 0) steps fuel (mkB (contInit dLb (setIndicator 0 s)) dLb) b) as (I & K1 & K2); [|exact H|].
  - constructor; cbn; auto. constructor.
  - cbn in K2. specialize (K2 ltac:(lia)). destruct I. split; congruence.
Qed.
Print Assumptions C126_points_partial.
(** If the test finds no bifurcation (a limit point), the search leaves the solver at the point before: the program writes that
    point again, at the same load, but moved by 1/tau. *)
Theorem C126_limit_point {S : VS} {Mat : Type} (p : problem S Mat) (o : opts) (k : kind) (quasi : bool) (u : S) (l : R) (s s1 t t' : st S Mat) :
  computeStability p o quasi s = Ret tt s1 -> stabilityChange s1 = true -> testSingularPoint p o false s1 = Ret false t ->
  bifSearch p o k quasi u l s = Ret true t' -> s_L t' = l /\ (s_Vm t <> v0 -> norm (s_U t' -v u) = 1 / Rabs (o_tau o)).
Proof.
  intros E1 E2 E3 H. unfold bifSearch in H. rewrite E1 in H. cbn [obind] in H. rewrite E2 in H. unfold computeSingularPoint, computeSingularPoint_ in H. rewrite E3 in H. cbn [obind] in H. cbv zeta in H. cbn [obind] in H.
  match type of H with obind (switchBranch o ?x) _ = _ => set (y := x) in H end.
  destruct (switchBranch o y) as [[] z|] eqn:ES; [|discriminate]. cbn [obind] in H. injection H as <-.
  split; [destruct (switch_move o _ _ ES) as (A & _); exact A|]. intros V.
  assert (HT : o_tau o <> 0). { intros Z. unfold switchBranch in ES. cbv zeta in ES. unfold rdiv in ES. rewrite (proj2 (Reqb_true _ _) Z) in ES. discriminate. }
  destruct (C37_switch_branch o y HT V) as (z' & E & _ & A & _). rewrite ES in E. injection E as <-. exact A.
Qed.
Print Assumptions C126_limit_point.
(** evaluation of the loop *)
Lemma b_accept {S : VS} {Mat} (p : problem S Mat) o k quasi dL steps fuel b s f s2 r : (c_k (b_c b) < steps)%nat -> step p o k (c_s (b_c b)) = Ret tt s -> repeats (s_stat s) = false ->
  bifSearch p o k quasi (c_U (b_c b)) (c_L (b_c b)) s = Ret f s2 ->
  (let c := b_c b in let dLb0 := if f then dL else b_dLb0 b in let dLb := if f then dL else c_dLb c in let s := if f then setLength dLb s2 else s2 in let dLb := if c_bis c then dLb else dLb0 in
   bifRun p o k quasi dL steps fuel (mkB (mkC (if c_bis c then s else setLength dLb s) dLb (s_U s) (s_L s) false (Datatypes.S (c_k c)) (c_out c ++ [(s_U s, s_L s)])) dLb0)) = r ->
  bifRun p o k quasi dL steps (Datatypes.S fuel) b = r.
Proof. intros H E T Q <-. cbn [bifRun]. rewrite (proj2 (Nat.ltb_lt _ _) H). unfold bifPass. cbv zeta. rewrite E, T, Q. reflexivity. Qed.
Lemma b_done {S : VS} {Mat} (p : problem S Mat) o k quasi dL steps fuel (b : bst S Mat) : (steps <= c_k (b_c b))%nat -> bifRun p o k quasi dL steps fuel b = BNext b.
Proof. intros H. destruct fuel; cbn [bifRun]; rewrite (proj2 (Nat.ltb_ge _ _) H); reflexivity. Qed.
Ltac baccept := eapply b_accept; [cbn; lia|cbn [b_c c_s contInit c_U c_L c_bis c_dLb b_dLb0]; ev|reflexivity|cbn [b_c c_s contInit c_U c_L c_bis c_dLb b_dLb0]; ev|cbv zeta].
(** The points written are not on the equilibrium path. A spring of negative stiffness, load control with length 1: the step
    succeeds at (-1/2, 1), but the stability has changed and the test finds a limit point; (-1, 0) is written, where the
    residual is 2. quasistatic_shell_multipatch_XML writes the same point. *)
Theorem C126_refuted : exists b c, bifMain inverted (exOpts 5) LoadControl false 1 1 1 1 (exSt VS_R R 1) = BNext b /\ c_out (b_c b) = [(-1, 0)] /\
  qMain inverted (exOpts 5) LoadControl true true None 1 1 (exSt VS_R R 1) = QNext c /\ q_out c = [(-1, 0)] /\
  p_residual inverted (-1 : VS_R) 0 = Some 2.
Proof.
  eexists. eexists. split; [unfold bifMain; baccept; apply b_done; cbn; lia|]. split; [rcbv; reflexivity|].
  split; [unfold qMain; cbv zeta; qaccept; apply q_done; cbn; lia|]. split; [rcbv; reflexivity|]. cbn. f_equal. lra.
Qed.
Print Assumptions C126_refuted.
(** the hypotheses of C126_limit_point hold after that step *)
Example C126_limit_example : exists s s1 t t', step inverted (exOpts 5) LoadControl (setIndicator 0 (exSt VS_R R 1)) = Ret tt s /\
  computeStability inverted (exOpts 5) false s = Ret tt s1 /\ stabilityChange s1 = true /\ testSingularPoint inverted (exOpts 5) false s1 = Ret false t /\
  bifSearch inverted (exOpts 5) LoadControl false (0 : VS_R) 0 s = Ret true t' /\ s_Vm t <> (v0 : VS_R).
Proof.
  do 4 eexists. split; [ev|]. split; [ev|]. split; [reflexivity|]. split; [ev|]. split; [ev|]. rcbv. lra.
Qed.
(** without a change of the stability the loop is that of C114: the spring of stiffness 2, load control with length 1 *)
Example C126_example : exists b, bifMain limited (exOpts 5) LoadControl false 1 1 1 1 (exSt VS_R R 1) = BNext b /\ c_out (b_c b) = [(1/2, 1)].
Proof.
  eexists. split; [unfold bifMain; baccept; apply b_done; cbn; lia|]. rcbv. reflexivity.
Qed.
