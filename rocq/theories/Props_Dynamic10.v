(** Convergence of the Bathe steps on linear problems: C108. *)
From Verif Require Import VS Status RunTac Static StaticRun Dynamic DynRun Props_Dynamic Props_Dynamic2 Props_Dynamic3 Props_Dynamic4 Props_Dynamic8 Props_Dynamic9.
Local Open Scope R_scope.

(** ** Calculus *)
Lemma taylor_back f f1 f2 f3 y T B : y <= T ->
  (forall x, y <= x <= T -> dlim f x (f1 x)) -> (forall x, y <= x <= T -> dlim f1 x (f2 x)) -> (forall x, y <= x <= T -> dlim f2 x (f3 x)) ->
  (forall x, y <= x <= T -> f3 x <= B) ->
  - (B / 6 * ((T - y) * (T - y) * (T - y))) <= f y - (f T - (T - y) * f1 T + 1/2 * ((T - y) * (T - y)) * f2 T).
Proof.
  intros YT D0 D1 D2 HB.
  assert (G2 : forall x, y <= x <= T -> 0 <= f2 x - f2 T + B * (T - x)).
  { intros z Hz. pose proof (mono (fun x => f2 x - f2 T + B * (T - x)) (fun x => f3 x - B) z T ltac:(lra)) as Q. cbv beta in Q.
    assert (f2 T - f2 T + B * (T - T) <= f2 z - f2 T + B * (T - z)); [apply Q|lra].
    - intros x Hx. specialize (D2 x ltac:(lra)). eapply dl_eq; [dl|cbv beta; field].
    - intros x Hx. specialize (HB x ltac:(lra)). lra. }
  assert (G1 : forall x, y <= x <= T -> f1 x - f1 T + (T - x) * f2 T - B / 2 * ((T - x) * (T - x)) <= 0).
  { intros z Hz. pose proof (mono (fun x => f1 T - f1 x - (T - x) * f2 T + B / 2 * ((T - x) * (T - x))) (fun x => - (f2 x - f2 T + B * (T - x))) z T ltac:(lra)) as Q. cbv beta in Q.
    match type of Q with _ -> _ -> ?l <= ?r => assert (l <= r); [apply Q|lra] end.
    - intros x Hx. specialize (D1 x ltac:(lra)). eapply dl_eq; [dl|cbv beta; field].
    - intros x Hx. specialize (G2 x ltac:(lra)). lra. }
  pose proof (mono (fun x => f x - (f T - (T - x) * f1 T + 1/2 * ((T - x) * (T - x)) * f2 T) + B / 6 * ((T - x) * (T - x) * (T - x)))
    (fun x => f1 x - f1 T + (T - x) * f2 T - B / 2 * ((T - x) * (T - x))) y T YT) as Q. cbv beta in Q.
  match type of Q with _ -> _ -> ?l <= ?r => assert (l <= r); [apply Q|lra] end.
  - intros x Hx. specialize (D0 x Hx). eapply dl_eq; [dl|cbv beta; field].
  - exact G1.
Qed.
(** the difference formula of the second sub-step *)
Lemma three_upper f f1 f2 f3 t h g B : 0 < h -> 0 < g < 1 ->
  (forall x, t <= x <= t + h -> dlim f x (f1 x)) -> (forall x, t <= x <= t + h -> dlim f1 x (f2 x)) -> (forall x, t <= x <= t + h -> dlim f2 x (f3 x)) ->
  (forall x, t <= x <= t + h -> - B <= f3 x <= B) ->
  f1 (t + h) - ((1 - g) / (g * h) * f t + (-1) / ((1 - g) * g * h) * f (t + g * h) + (2 - g) / ((1 - g) * h) * f (t + h)) <= B * (h * h) * ((1 - g) * (2 - g) / (6 * g)).
Proof.
  intros Hh Hg D0 D1 D2 HB.
  assert (Q1 := taylor_back f f1 f2 f3 t (t + h) B ltac:(lra) D0 D1 D2 (fun x Hx => proj2 (HB x Hx))).
  assert (GH : 0 < g * h < h) by nra.
  pose proof (taylor_back (fun x => - f x) (fun x => - f1 x) (fun x => - f2 x) (fun x => - f3 x) (t + g * h) (t + h) B ltac:(lra)) as Q2.
  cbv beta in Q2.
  specialize (Q2 ltac:(intros; apply (derivable_pt_lim_opp f), D0; lra) ltac:(intros; apply (derivable_pt_lim_opp f1), D1; lra) ltac:(intros; apply (derivable_pt_lim_opp f2), D2; lra)
    ltac:(intros x Hx; specialize (HB x ltac:(lra)); lra)).
  replace (t + h - t) with h in Q1 by ring. replace (t + h - (t + g * h)) with ((1 - g) * h) in Q2 by ring.
  set (A0 := f t) in *. set (A1 := f (t + g * h)) in *. set (A2 := f (t + h)) in *. set (P := f1 (t + h)) in *. set (W := f2 (t + h)) in *. clearbody A0 A1 A2 P W.
  apply Rmult_le_reg_r with (6 * g * (1 - g) * h); [repeat apply Rmult_lt_0_compat; lra|].
  assert (E1 : (P - ((1 - g) / (g * h) * A0 + (-1) / ((1 - g) * g * h) * A1 + (2 - g) / ((1 - g) * h) * A2)) * (6 * g * (1 - g) * h) =
    6 * g * (1 - g) * h * P - 6 * ((1 - g) * (1 - g)) * A0 + 6 * A1 - 6 * g * (2 - g) * A2) by (field; lra).
  assert (E2 : B * (h * h) * ((1 - g) * (2 - g) / (6 * g)) * (6 * g * (1 - g) * h) = B * (h * h * h) * ((1 - g) * (1 - g) * (2 - g))) by (field; lra).
  rewrite E1, E2. clear E1 E2.
  apply (Rmult_le_compat_l (6 * ((1 - g) * (1 - g)))) in Q1; [|apply Rmult_le_pos; [lra|apply Rmult_le_pos; lra]].
  apply (Rmult_le_compat_l 6) in Q2; [|lra]. lra.
Qed.

Section Norm2.
Context {S : VS}.
Variables (M C K : S -> S).
Hypothesis LM : linear M. Hypothesis LC : linear C. Hypothesis LK : linear K.
Hypothesis SM : forall x y, dot x (M y) = dot (M x) y.
Hypothesis SK : forall x y, dot x (K y) = dot (K x) y.
Hypothesis PM : forall x, 0 <= dot x (M x).
Hypothesis PK : forall x, 0 <= dot x (K x).
Hypothesis PC : forall x, 0 <= dot x (C x).
Notation en := (enorm M K).
Lemma en_tri u v u' v' : en (u +v u') (v +v v') <= en u v + en u' v'.
Proof.
  pose proof (en_pos M K u v). pose proof (en_pos M K u' v'). apply Rsqr_incr_0_var; [|lra]. unfold Rsqr.
  replace ((en u v + en u' v') * (en u v + en u' v')) with (en u v * en u v + en u' v' * en u' v' + 2 * (en u v * en u' v')) by ring.
  rewrite !(en_sq M K PM PK). lin LK. lin LM. autorewrite with dot. pose proof (en_cs M K LM LK SM SK PM PK u v u' v') as Y. apply Rabs_def2' in Y.
  rewrite (SK u' u), (dot_sym _ (K u') u), (SM v' v), (dot_sym _ (M v') v). lra.
Qed.
Lemma en_scale k u v : 0 <= k -> en (k *v u) (k *v v) = k * en u v.
Proof.
  intros Hk. unfold enorm. lin LK. lin LM. autorewrite with dot.
  replace (k * (k * dot u (K u)) + k * (k * dot v (M v))) with ((k * k) * (dot u (K u) + dot v (M v))) by ring.
  rewrite sqrt_mult; [|nra|pose proof (PK u); pose proof (PM v); lra]. rewrite sqrt_square by exact Hk. reflexivity.
Qed.
Lemma en_zero : en v0 v0 = 0.
Proof. unfold enorm. rewrite !dot_0_l, Rplus_0_l. apply sqrt_0. Qed.
Lemma three_defect (u v a j k : R -> S) t h g b : 0 < h -> 0 < g < 1 -> derives u v -> derives v a -> derives a j -> derives j k ->
  (forall x, t <= x <= t + h -> en (j x) (k x) <= b) ->
  en (v (t + h) -v ((1 - g) / (g * h) *v u t +v (-1) / ((1 - g) * g * h) *v u (t + g * h) +v (2 - g) / ((1 - g) * h) *v u (t + h)))
     (a (t + h) -v ((1 - g) / (g * h) *v v t +v (-1) / ((1 - g) * g * h) *v v (t + g * h) +v (2 - g) / ((1 - g) * h) *v v (t + h))) <= b * (h * h) * ((1 - g) * (2 - g) / (6 * g)).
Proof.
  intros Hh Hg DU DV DA DJ B. match goal with |- en ?x ?y <= _ => set (du := x); set (dv := y) end.
  assert (B0 : 0 <= b) by (eapply Rle_trans; [apply (en_pos M K)|apply (B t); lra]).
  assert (C0 : 0 <= (1 - g) * (2 - g) / (6 * g)) by (apply Rlt_le, Rdiv_lt_0_compat; [apply Rmult_lt_0_compat|]; lra).
  apply (en_le M K PM PK); [apply Rmult_le_pos; [apply Rmult_le_pos; nra|exact C0]|].
  pose proof (three_upper (fun x => dot (K du) (u x) + dot (M dv) (v x)) (fun x => dot (K du) (v x) + dot (M dv) (a x)) (fun x => dot (K du) (a x) + dot (M dv) (j x)) (fun x => dot (K du) (j x) + dot (M dv) (k x)) t h g (b * en du dv) Hh Hg) as Q.
  specialize (Q (fun x _ => dl_form _ _ _ _ _ _ x DU DV) (fun x _ => dl_form _ _ _ _ _ _ x DV DA) (fun x _ => dl_form _ _ _ _ _ _ x DA DJ)).
  specialize (Q ltac:(intros x Hx; cbv beta; rewrite <- SK, <- SM; pose proof (en_cs M K LM LK SM SK PM PK du dv (j x) (k x)) as Y; apply Rabs_def2' in Y; pose proof (Rmult_le_compat_l _ _ _ (en_pos M K du dv) (B x Hx)); lra)).
  cbv beta in Q. replace (b * (h * h) * ((1 - g) * (2 - g) / (6 * g)) * en du dv) with (b * en du dv * (h * h) * ((1 - g) * (2 - g) / (6 * g))) by (field; lra). eapply Rle_trans; [|exact Q].
  rewrite (SK du), (SM dv). unfold du at 2, dv at 2. autorewrite with dot. apply Req_le. ring.
Qed.
End Norm2.

(** ** C108 *)
Section ConvergenceBathe.
Context {S : VS}.
Variables (p : dprob S) (o : dopts) (M C K : S -> S) (F : R -> S).
Hypothesis L : linearProb p.
Hypothesis CO : constOps p M C K.
Hypothesis HF : forall t, dp_force p t = Yes (F t).
Hypothesis Ho : do_alpha o = 1/4 /\ do_delta o = 1/2.
Hypothesis Hg : 0 < do_gamma o < 1.
Hypothesis SM : forall x y, dot x (M y) = dot (M x) y.
Hypothesis SK : forall x y, dot x (K y) = dot (K x) y.
Hypothesis PM : forall x, 0 <= dot x (M x).
Hypothesis PK : forall x, 0 <= dot x (K x).
Hypothesis PC : forall x, 0 <= dot x (C x).
Variables (u v a j k : R -> S).
Hypothesis DU : derives u v.
Hypothesis DV : derives v a.
Hypothesis DA : derives a j.
Hypothesis DJ : derives j k.
Hypothesis EQ : forall x, M (a x) +v C (v x) +v K (u x) = F x.
Let LM := lp_mass L 0 M (co_mass _ _ _ _ CO 0).
Let LC := lp_damp L v0 0 C (co_damp _ _ _ _ CO v0 0).
Let LK := lp_jac L v0 0 K (co_jac _ _ _ _ CO v0 0).
Notation en := (enorm M K).
Notation g := (do_gamma o).
(** the matrices of the two sub-steps of a step of size h *)
Definition subSolvable (h : R) : Prop :=
  solvable p (fun x => M x +v (do_delta o * (g * h)) *v C x +v (g * h * (g * h) * do_alpha o) *v K x) /\
  solvable p (fun x => K x +v (bc3 o h * bc3 o h) *v M x +v bc3 o h *v C x).
(** the problem without force *)
Let p0 := mkDP (dp_mass p) (dp_damp p) (dp_jac p) (fun _ => Yes (v0 : S)) (dp_res p) (dp_const p) (dp_solve p) (dp_inv p) (dp_gmres p).
Lemma free_linear : linearProb p0.
Proof. destruct L. split; assumption. Qed.
Lemma free_const : constOps p0 M C K.
Proof. destruct CO. split; assumption. Qed.
Lemma free_step h (e : xst S) : h <> 0 -> subSolvable h -> exists s', bathe p0 o 0 h e = Done (Fin Success) s'.
Proof.
  intros H0 [S1 S2]. unfold bathe, newmark. cbv zeta. rewrite !(co_mass _ _ _ _ free_const), !(co_damp _ _ _ _ free_const), !(co_jac _ _ _ _ free_const).
  cbn [ask rbind dp_force p0]. change (dp_solve p0) with (dp_solve p).
  match goal with |- context [dp_solve p ?m ?b] => destruct (proj2 S1 b) as (x & E & _) end. rewrite E. cbn [x_U x_V x_A x_inv xU xV xA xInv].
  match goal with |- context [dp_solve p ?m ?b] => destruct (proj2 S2 b) as (y & E' & _) end. cbn [x_U x_V x_A x_inv xU xV xA xInv] in E'. rewrite E'.
  assert (B : batheBad o h = false) by (unfold batheBad; rewrite !(proj2 (Reqb_false _ _)) by lra; reflexivity). rewrite B. eexists. reflexivity.
Qed.
Lemma bathe_error b t h s s1 : 0 <= h -> subSolvable h -> M (x_A s) +v C (x_V s) +v K (x_U s) = F t ->
  bathe p o t h s = Done (Fin Success) s1 -> (forall x, t <= x <= t + h -> en (j x) (k x) <= b) ->
  M (x_A s1) +v C (x_V s1) +v K (x_U s1) = F (t + h) /\
  en (x_U s1 -v u (t + h)) (x_V s1 -v v (t + h)) <= en (x_U s -v u t) (x_V s -v v t) + b * (h * h * h) * (g * g / (12 * (2 - g)) + (1 - g) * (1 - g) / (6 * g)).
Proof.
  intros Hh SV B H BD.
  pose proof (C51_balance p o t h s _ s1 L H) as (_ & M' & C' & K' & F' & N1 & N2 & N3 & N4 & B2).
  rewrite (co_mass _ _ _ _ CO) in N1. injection N1 as <-. rewrite HF in N2. injection N2 as <-.
  rewrite (co_damp _ _ _ _ CO) in N3. injection N3 as <-. rewrite (co_jac _ _ _ _ CO) in N4. injection N4 as <-. split; [exact B2|].
  destruct (bathe_ok _ _ _ _ _ _ _ H) as (_ & _ & _ & D0 & q1 & m & M' & C' & K' & F' & E0 & _ & _ & _ & _ & _ & EV & EA). clear M' C' K' F'.
  destruct (C48_newmark p o t _ s q1 m L E0) as (_ & EU1 & EV1 & M' & C' & K' & F' & N1 & N2 & (N3 & N4) & B1).
  rewrite (co_mass _ _ _ _ CO) in N1. injection N1 as <-. rewrite HF in N2. injection N2 as <-.
  rewrite (co_damp _ _ _ _ CO) in N3. injection N3 as <-. rewrite (co_jac _ _ _ _ CO) in N4. injection N4 as <-.
  destruct Ho as [Ha Hd]. rewrite Ha in EU1. rewrite Hd in EV1. clear H E0.
  assert (HP : 0 < h) by lra. assert (B0 : 0 <= b) by (eapply Rle_trans; [apply (en_pos M K (j t) (k t))|apply BD; lra]).
  (* the free step from the error *)
  set (e := mkX (x_U s -v u t) (x_V s -v v t) (x_A s -v a t) None).
  assert (BE : balanced M C K v0 e).
  { unfold balanced. cbn [x_U x_V x_A e]. lin LM. lin LC. lin LK. transitivity ((M (x_A s) +v C (x_V s) +v K (x_U s)) -v (M (a t) +v C (v t) +v K (u t))); [vring|]. rewrite B, EQ. vring. }
  destruct (free_step h e D0 SV) as [f2 FS].
  destruct (C102_stable p0 o M C K v0 free_linear free_const (fun _ => eq_refl) Ho SM SK 0 [h] e (0 + h) f2 Hg PM PC PK BE ltac:(constructor; [exact Hh|constructor]) ltac:(eapply StCons; [exact FS|apply StNil])) as [FE FB].
  destruct (bathe_ok _ _ _ _ _ _ _ FS) as (_ & _ & _ & _ & q2 & f1 & M' & C' & K' & F' & E0 & _ & _ & _ & _ & _ & FV & FA). clear M' C' K' F'.
  destruct (newmark_const p0 o M C K v0 free_linear free_const (fun _ => eq_refl) _ _ _ _ _ E0) as (FU1 & FV1 & FB1). rewrite Ha in FU1. rewrite Hd in FV1.
  assert (FN : en (x_U f2) (x_V f2) <= en (x_U s -v u t) (x_V s -v v t)).
  { unfold enorm. apply sqrt_le_1_alt. unfold energy in FE. rewrite !dot_0_l in FE. cbn [x_U x_V e] in FE. lra. }
  clear FS E0 FE SV. unfold balanced in FB, FB1. cbn [x_U x_V x_A e] in FU1, FV1, FV, FA.
  (* first sub-step *)
  assert (GH : 0 < g * h < h) by nra.
  pose proof (trap_defect M K LM LK SM SK PM PK u v a t (g * h) b ltac:(lra) DU DV j k DA DJ (fun x Hx => BD x ltac:(lra))) as Q1.
  match type of Q1 with en ?x ?y <= _ => set (du := x) in Q1; set (dv := y) in Q1 end.
  set (ru1 := x_U m -v u (t + g * h) -v x_U f1). set (rv1 := x_V m -v v (t + g * h) -v x_V f1). set (ra1 := x_A m -v a (t + g * h) -v x_A f1).
  pose proof (trap_error M C K LM LC LK SM SK PM PK PC v0 v0 v0 ru1 rv1 ra1 du dv (g * h) ltac:(lra)) as R1.
  specialize (R1 ltac:(rewrite (lin_0 LM), (lin_0 LC), (lin_0 LK); vring)).
  specialize (R1 ltac:(unfold ru1, rv1, ra1; lin LM; lin LC; lin LK; transitivity ((M (x_A m) +v C (x_V m) +v K (x_U m)) -v (M (a (t + g * h)) +v C (v (t + g * h)) +v K (u (t + g * h))) -v (M (x_A f1) +v C (x_V f1) +v K (x_U f1))); [vring|]; rewrite B1, EQ, FB1; vring)).
  specialize (R1 ltac:(unfold ru1, rv1, du; rewrite EU1, EV1, FU1, FV1; vfield)). specialize (R1 ltac:(unfold rv1, ra1, dv; rewrite EV1, FV1; vfield)).
  rewrite en_zero, Rplus_0_l in R1.
  (* second sub-step *)
  pose proof (three_defect M K LM LK SM SK PM PK u v a j k t h g b HP Hg DU DV DA DJ BD) as Q2.
  match type of Q2 with en ?x ?y <= _ => set (pu := x) in Q2; set (pv := y) in Q2 end.
  set (ru2 := x_U s1 -v u (t + h) -v x_U f2). set (rv2 := x_V s1 -v v (t + h) -v x_V f2). set (ra2 := x_A s1 -v a (t + h) -v x_A f2).
  assert (NB : M ra2 +v C rv2 +v K ru2 = v0).
  { unfold ru2, rv2, ra2. lin LM. lin LC. lin LK. transitivity ((M (x_A s1) +v C (x_V s1) +v K (x_U s1)) -v (M (a (t + h)) +v C (v (t + h)) +v K (u (t + h))) -v (M (x_A f2) +v C (x_V f2) +v K (x_U f2))); [vring|]. rewrite B2, EQ, FB. vring. }
  assert (NV : rv2 = bc2 o h *v ru1 +v bc3 o h *v ru2 -v pu) by (unfold rv2, ru1, ru2, pu; rewrite EV, FV; fold (bc1 o h); fold (bc2 o h); fold (bc3 o h); vring).
  assert (NA : ra2 = bc2 o h *v rv1 +v bc3 o h *v rv2 -v pv) by (unfold ra2, rv1, rv2, pv; rewrite EA, FA; fold (bc1 o h); fold (bc2 o h); fold (bc3 o h); vring).
  set (c := (1 - g) * h / (2 - g)). set (c' := 1 / (g * (2 - g))).
  assert (Hc : 0 <= c) by (unfold c; apply Rlt_le, Rdiv_lt_0_compat; [apply Rmult_lt_0_compat|]; lra).
  assert (Hc' : 0 <= c') by (unfold c'; apply Rlt_le, Rdiv_lt_0_compat; [|apply Rmult_lt_0_compat]; lra).
  pose proof (back_error M C K LM LK SM SK PM PK PC (c' *v ru1) (c' *v rv1) ru2 rv2 (c *v vopp pu) (c *v vopp pv) c Hc) as R2.
  specialize (R2 ltac:(rewrite NV; unfold c, c', bc2, bc3; vfield; lra)).
  assert (W : rv2 -v c' *v rv1 +v c *v vopp pv = c *v ra2) by (rewrite NA; unfold c, c', bc2, bc3; vfield; lra).
  specialize (R2 ltac:(rewrite W, (lin_scale _ LM); transitivity (c *v ((M ra2 +v C rv2 +v K ru2) -v (C rv2 +v K ru2))); [vring|]; rewrite NB; vring)).
  rewrite !(en_scale M K LM LK PM PK) in R2 by assumption.
  assert (OP : en (vopp pu) (vopp pv) = en pu pv) by (unfold enorm; lin LK; lin LM; autorewrite with dot; f_equal; ring). rewrite OP in R2.
  pose proof (en_tri M K LM LK SM SK PM PK (x_U f2) (x_V f2) ru2 rv2) as T.
  replace (x_U f2 +v ru2) with (x_U s1 -v u (t + h)) in T by (unfold ru2; vring). replace (x_V f2 +v rv2) with (x_V s1 -v v (t + h)) in T by (unfold rv2; vring).
  assert (X1 : c' * en ru1 rv1 <= c' * (b * (g * h * (g * h) * (g * h)) / 12)) by (apply Rmult_le_compat_l; [exact Hc'|lra]).
  assert (X2 : c * en pu pv <= c * (b * (h * h) * ((1 - g) * (2 - g) / (6 * g)))) by (apply Rmult_le_compat_l; assumption).
  assert (X3 : c' * (b * (g * h * (g * h) * (g * h)) / 12) + c * (b * (h * h) * ((1 - g) * (2 - g) / (6 * g))) = b * (h * h * h) * (g * g / (12 * (2 - g)) + (1 - g) * (1 - g) / (6 * g))) by (unfold c, c'; field; lra).
  lra.
Qed.
(** Bathe (linear), any sub-step inside the step, any force, any sequence of step sizes up to hm:
    second order. *)
Theorem C108_bathe hm b t l s t' s' :
  M (x_A s) +v C (x_V s) +v K (x_U s) = F t ->
  Forall (fun h => 0 <= h <= hm /\ subSolvable h) l -> Steps (bathe p o) t l s t' s' ->
  (forall x, t <= x <= t' -> en (j x) (k x) <= b) ->
  en (x_U s' -v u t') (x_V s' -v v t') <= en (x_U s -v u t) (x_V s -v v t) + (t' - t) * (hm * hm) * (g * g / (12 * (2 - g)) + (1 - g) * (1 - g) / (6 * g)) * b.
Proof.
  intros B P H. induction H as [t s|t h l s s1 t2 s2 H H1 IH]; intros BD; [lra|]. inversion P as [|? ? [[P1 P2] PL] P3]; subst.
  assert (T : t + h <= t2) by (clear - H1 P3; induction H1; [lra|]; inversion P3; subst; specialize (IHSteps H4); lra).
  destruct (bathe_error b t h s s1 P1 PL B H (fun x Hx => BD x ltac:(lra))) as [B1 Q].
  eapply Rle_trans; [apply IH; [exact B1|exact P3|intros x Hx; apply BD; lra]|]. clear IH.
  assert (B0 : 0 <= b) by (eapply Rle_trans; [apply (en_pos M K (j t) (k t))|apply BD; lra]).
  set (c := g * g / (12 * (2 - g)) + (1 - g) * (1 - g) / (6 * g)) in *.
  assert (0 <= c) by (unfold c; apply Rplus_le_le_0_compat; apply Rlt_le, Rdiv_lt_0_compat; try apply Rmult_lt_0_compat; lra).
  assert (h * h * h <= h * (hm * hm)) by (rewrite Rmult_assoc; apply Rmult_le_compat_l; [assumption|]; apply Rmult_le_compat; assumption).
  assert (b * c * (h * h * h) <= b * c * (h * (hm * hm))) by (apply Rmult_le_compat_l; [apply Rmult_le_pos; assumption|assumption]). lra.
Qed.
End ConvergenceBathe.
Print Assumptions C108_bathe.

(** *** Example: u'' + u = 0, ten steps of a tenth, sub-step in the middle *)
Notation osc1 := (osc2 1 0 1 (fun _ => 0)).
Lemma osc2_solvable m c k f (A : R -> R) : (exists d, d <> 0 /\ forall x, A x = d * x) -> solvable (osc2 m c k f) (A : VS_R -> VS_R).
Proof. exact (osc_solvable m c k f A). Qed.
Example C108_example : exists t' s', Steps (bathe osc1 (trap (1/2))) 0 one10 (mkX (S := VS_R) 1 0 (-1) None) t' s' /\
  t' = 1 /\ Rabs (x_U s' - cos 1) <= 1/1000 /\ Rabs (x_V s' + sin 1) <= 1/1000.
Proof.
  destruct (steps_exist (bathe osc1 (trap (1/2))) (fun _ => True)) with (n := 10%nat) (t := 0) (s := mkX (S := VS_R) 1 0 (-1) None) as (t' & s' & H & E); [|exact I|].
  { intros t s _. unfold bathe, newmark, batheBad, bc1, bc2, bc3. cbn. rewrite !(proj2 (Reqb_false _ _)) by lra. rewrite !(proj2 (Reqb_true _ _)) by (field; lra). cbn. rewrite !(proj2 (Reqb_false _ _)) by lra. rewrite !(proj2 (Reqb_true _ _)) by (field; lra). cbn. eexists. split; [reflexivity|exact I]. }
  exists t', s'. split; [exact H|]. assert (T : t' = 1) by (rewrite E; cbn; lra). split; [exact T|].
  pose proof (C108_bathe osc1 (trap (1/2)) (fun x => 1 * x) (fun x => 0 * x) (fun x => 1 * x) (fun _ => 0) (osc2_linear _ _ _ _) ltac:(split; reflexivity) (fun _ => eq_refl) ltac:(cbn; lra) ltac:(cbn; lra)
    ltac:(intros; cbn; ring) ltac:(intros; cbn; ring) ltac:(intros; cbn; nra) ltac:(intros; cbn; nra) ltac:(intros; cbn; nra)
    cos (fun t => - sin t) (fun t => - cos t) sin cos derives_cos derives_msin derives_mcos derives_sin ltac:(intros; cbn; ring) (1/10) 1 0 one10 (mkX (S := VS_R) 1 0 (-1) None) t' s' ltac:(cbn; lra)) as Q.
  assert (P : Forall (fun h => 0 <= h <= 1/10 /\ subSolvable osc1 (trap (1/2)) (fun x => 1 * x) (fun x => 0 * x) (fun x => 1 * x) h) one10).
  { apply Forall_forall. intros x Hx. apply repeat_spec in Hx. subst x. split; [lra|]. split.
    - eapply (osc2_solvable 1 0 1 (fun _ => 0) (fun x => _)). exists (1601/1600). split; [lra|]. intros x. cbn. field.
    - eapply (osc2_solvable 1 0 1 (fun _ => 0) (fun x => _)). exists 901. split; [lra|]. intros x. unfold bc3. cbn. field. }
  specialize (Q P H).
  specialize (Q ltac:(intros x Hx; rewrite en_one; [lra|apply trig1])). rewrite T in Q. cbn [x_U x_V] in Q. rewrite enZ in Q. apply en_abs in Q. cbn in Q.
  destruct Q as [Q1 Q2]. match type of Q1 with Rabs ?l <= _ => replace l with (x_U s' - cos 1) in Q1 by (cbn; ring) end. match type of Q2 with Rabs ?l <= _ => replace l with (x_V s' + sin 1) in Q2 by (cbn; ring) end. split; lra.
Qed.
