(** Convergence of the time integrators on linear problems: C105-C107. *)
From Verif Require Import VS Status RunTac Static StaticRun Dynamic DynRun Props_Dynamic Props_Dynamic2 Props_Dynamic3 Props_Dynamic4 Props_Dynamic8.
Local Open Scope R_scope.

(** ** Calculus *)
Notation dlim := derivable_pt_lim.
Lemma dl_plus f g x a b : dlim f x a -> dlim g x b -> dlim (fun y => f y + g y) x (a + b).
Proof. apply (derivable_pt_lim_plus f g). Qed.
Lemma dl_minus f g x a b : dlim f x a -> dlim g x b -> dlim (fun y => f y - g y) x (a - b).
Proof. apply (derivable_pt_lim_minus f g). Qed.
Lemma dl_mult f g x a b : dlim f x a -> dlim g x b -> dlim (fun y => f y * g y) x (a * g x + f x * b).
Proof. apply (derivable_pt_lim_mult f g). Qed.
Lemma dl_const c x : dlim (fun _ => c) x 0.
Proof. apply derivable_pt_lim_const. Qed.
Lemma dl_id x : dlim (fun y => y) x 1.
Proof. apply derivable_pt_lim_id. Qed.
Lemma dl_eq f x a b : dlim f x a -> a = b -> dlim f x b.
Proof. intros H <-. exact H. Qed.
Ltac dl := repeat first [eassumption | apply dl_minus | apply dl_plus | apply dl_mult | apply dl_const | apply dl_id].
(** a function with a derivative that is not positive does not grow *)
Lemma mono f f' a b : a <= b -> (forall x, a <= x <= b -> dlim f x (f' x)) -> (forall x, a <= x <= b -> f' x <= 0) -> f b <= f a.
Proof.
  intros AB D N. destruct (Req_dec a b) as [->|NE]; [lra|]. destruct (MVT_cor2 f f' a b ltac:(lra) D) as (c & E & H).
  pose proof (N c ltac:(lra)). nra.
Qed.
Section Scalar.
Variables (f f1 f2 f3 f4 f5 : R -> R) (t h b : R).
Hypothesis Hh : 0 <= h.
Hypothesis D0 : forall x, t <= x <= t + h -> dlim f x (f1 x).
Hypothesis D1 : forall x, t <= x <= t + h -> dlim f1 x (f2 x).
Lemma rect_upper : (forall x, t <= x <= t + h -> - b <= f2 x) -> f (t + h) - f t - h * f1 (t + h) <= b * (h * h) / 2.
Proof.
  intros B. pose proof (mono (fun x => f x - f t - (x - t) * f1 x - b / 2 * ((x - t) * (x - t))) (fun x => - ((x - t) * (f2 x + b))) t (t + h) ltac:(lra)) as Q.
  cbv beta in Q. enough (f (t + h) - f t - (t + h - t) * f1 (t + h) - b / 2 * ((t + h - t) * (t + h - t)) <= 0) by lra.
  eapply Rle_trans; [apply Q|lra].
  - intros x Hx. specialize (D0 x Hx). specialize (D1 x Hx). eapply dl_eq; [dl|cbv beta; field].
  - intros x Hx. specialize (B x Hx). assert (0 <= (x - t) * (f2 x + b)) by (apply Rmult_le_pos; lra). lra.
Qed.
Hypothesis D2 : forall x, t <= x <= t + h -> dlim f2 x (f3 x).
Lemma trap_upper : (forall x, t <= x <= t + h -> - b <= f3 x) -> f (t + h) - f t - h / 2 * (f1 t + f1 (t + h)) <= b * (h * h * h) / 12.
Proof.
  intros B.
  assert (G1 : forall x, t <= x <= t + h -> 1/2 * (f1 x - f1 t) - 1/2 * ((x - t) * f2 x) - b / 4 * ((x - t) * (x - t)) <= 0).
  { intros y Hy. pose proof (mono (fun x => 1/2 * (f1 x - f1 t) - 1/2 * ((x - t) * f2 x) - b / 4 * ((x - t) * (x - t))) (fun x => - (1/2 * ((x - t) * (f3 x + b)))) t y ltac:(lra)) as Q.
    cbv beta in Q. eapply Rle_trans; [apply Q|lra].
    - intros x Hx. specialize (D1 x ltac:(lra)). specialize (D2 x ltac:(lra)). eapply dl_eq; [dl|cbv beta; field].
    - intros x Hx. specialize (B x ltac:(lra)). assert (0 <= (x - t) * (f3 x + b)) by (apply Rmult_le_pos; lra). lra. }
  pose proof (mono (fun x => f x - f t - 1/2 * ((x - t) * (f1 t + f1 x)) - b / 12 * ((x - t) * (x - t) * (x - t)))
    (fun x => 1/2 * (f1 x - f1 t) - 1/2 * ((x - t) * f2 x) - b / 4 * ((x - t) * (x - t))) t (t + h) ltac:(lra)) as Q.
  cbv beta in Q. enough (f (t + h) - f t - 1/2 * ((t + h - t) * (f1 t + f1 (t + h))) - b / 12 * ((t + h - t) * (t + h - t) * (t + h - t)) <= 0) by lra.
  eapply Rle_trans; [apply Q|lra].
  - intros x Hx. specialize (D0 x Hx). specialize (D1 x Hx). eapply dl_eq; [dl|cbv beta; field].
  - exact G1.
Qed.
Hypothesis D3 : forall x, t <= x <= t + h -> dlim f3 x (f4 x).
Hypothesis D4 : forall x, t <= x <= t + h -> dlim f4 x (f5 x).
Lemma taylor_upper : (forall x, t <= x <= t + h -> f5 x <= b) ->
  f (t + h) - (f t + h * f1 t + h^2/2 * f2 t + h^3/6 * f3 t + h^4/24 * f4 t) <= b * h^5 / 120.
Proof.
  intros B.
  assert (G4 : forall x, t <= x <= t + h -> f4 x - f4 t - b * (x - t) <= 0).
  { intros y Hy. pose proof (mono (fun x => f4 x - f4 t - b * (x - t)) (fun x => f5 x - b) t y ltac:(lra)) as Q. cbv beta in Q. eapply Rle_trans; [apply Q|lra].
    - intros x Hx. specialize (D4 x ltac:(lra)). eapply dl_eq; [dl|cbv beta; field].
    - intros x Hx. specialize (B x ltac:(lra)). lra. }
  assert (G3 : forall x, t <= x <= t + h -> f3 x - f3 t - (x - t) * f4 t - b / 2 * ((x - t) * (x - t)) <= 0).
  { intros y Hy. pose proof (mono (fun x => f3 x - f3 t - (x - t) * f4 t - b / 2 * ((x - t) * (x - t))) (fun x => f4 x - f4 t - b * (x - t)) t y ltac:(lra)) as Q. cbv beta in Q. eapply Rle_trans; [apply Q|lra].
    - intros x Hx. specialize (D3 x ltac:(lra)). eapply dl_eq; [dl|cbv beta; field].
    - intros x Hx. apply G4. lra. }
  assert (G2 : forall x, t <= x <= t + h -> f2 x - f2 t - (x - t) * f3 t - 1/2 * ((x - t) * (x - t)) * f4 t - b / 6 * ((x - t) * (x - t) * (x - t)) <= 0).
  { intros y Hy. pose proof (mono (fun x => f2 x - f2 t - (x - t) * f3 t - 1/2 * ((x - t) * (x - t)) * f4 t - b / 6 * ((x - t) * (x - t) * (x - t))) (fun x => f3 x - f3 t - (x - t) * f4 t - b / 2 * ((x - t) * (x - t))) t y ltac:(lra)) as Q. cbv beta in Q. eapply Rle_trans; [apply Q|lra].
    - intros x Hx. specialize (D2 x ltac:(lra)). eapply dl_eq; [dl|cbv beta; field].
    - intros x Hx. apply G3. lra. }
  assert (G1 : forall x, t <= x <= t + h -> f1 x - f1 t - (x - t) * f2 t - 1/2 * ((x - t) * (x - t)) * f3 t - 1/6 * ((x - t) * (x - t) * (x - t)) * f4 t - b / 24 * ((x - t) * (x - t) * (x - t) * (x - t)) <= 0).
  { intros y Hy. pose proof (mono (fun x => f1 x - f1 t - (x - t) * f2 t - 1/2 * ((x - t) * (x - t)) * f3 t - 1/6 * ((x - t) * (x - t) * (x - t)) * f4 t - b / 24 * ((x - t) * (x - t) * (x - t) * (x - t)))
      (fun x => f2 x - f2 t - (x - t) * f3 t - 1/2 * ((x - t) * (x - t)) * f4 t - b / 6 * ((x - t) * (x - t) * (x - t))) t y ltac:(lra)) as Q. cbv beta in Q. eapply Rle_trans; [apply Q|lra].
    - intros x Hx. specialize (D1 x ltac:(lra)). eapply dl_eq; [dl|cbv beta; field].
    - intros x Hx. apply G2. lra. }
  pose proof (mono (fun x => f x - f t - (x - t) * f1 t - 1/2 * ((x - t) * (x - t)) * f2 t - 1/6 * ((x - t) * (x - t) * (x - t)) * f3 t - 1/24 * ((x - t) * (x - t) * (x - t) * (x - t)) * f4 t - b / 120 * ((x - t) * (x - t) * (x - t) * (x - t) * (x - t)))
      (fun x => f1 x - f1 t - (x - t) * f2 t - 1/2 * ((x - t) * (x - t)) * f3 t - 1/6 * ((x - t) * (x - t) * (x - t)) * f4 t - b / 24 * ((x - t) * (x - t) * (x - t) * (x - t))) t (t + h) ltac:(lra)) as Q. cbv beta in Q.
  match type of Q with _ -> _ -> ?l <= ?r => assert (Q1 : l <= r) end.
  { apply Q; [|exact G1]. intros x Hx. specialize (D0 x Hx). eapply dl_eq; [dl|cbv beta; field]. }
  clear Q. replace (t + h - t) with h in Q1 by ring. lra.
Qed.
End Scalar.

(** ** Vectors *)
Lemma Rabs_def2' x y : Rabs x <= y -> - y <= x <= y.
Proof. intros H. pose proof (Rle_abs x). pose proof (Rle_abs (- x)). rewrite Rabs_Ropp in *. lra. Qed.
(** g is the derivative of f *)
Definition derives {S : VS} (f g : R -> S) : Prop := forall z x, dlim (fun t => dot z (f t)) x (dot z (g x)).
(** the norm of the energy of a displacement and a velocity *)
Definition enorm {S : VS} (M K : S -> S) (u v : S) : R := sqrt (dot u (K u) + dot v (M v)).
Section Norm.
Context {S : VS}.
Variables (M C K : S -> S).
Hypothesis LM : linear M. Hypothesis LC : linear C. Hypothesis LK : linear K.
Hypothesis SM : forall x y, dot x (M y) = dot (M x) y.
Hypothesis SK : forall x y, dot x (K y) = dot (K x) y.
Hypothesis PM : forall x, 0 <= dot x (M x).
Hypothesis PK : forall x, 0 <= dot x (K x).
Hypothesis PC : forall x, 0 <= dot x (C x).
Notation en := (enorm M K).
Lemma en_sq u v : en u v * en u v = dot u (K u) + dot v (M v).
Proof. apply sqrt_sqrt. pose proof (PM v). pose proof (PK u). lra. Qed.
Lemma en_pos u v : 0 <= en u v.
Proof. apply sqrt_pos. Qed.
Lemma en_cs u v u' v' : Rabs (dot u (K u') + dot v (M v')) <= en u v * en u' v'.
Proof.
  apply Rsqr_incr_0_var; [|apply Rmult_le_pos; apply en_pos]. rewrite <- Rsqr_abs. unfold Rsqr.
  replace (en u v * en u' v' * (en u v * en u' v')) with ((en u v * en u v) * (en u' v' * en u' v')) by ring. rewrite !en_sq.
  set (KM := fun x : VS_prod S S => (K (fst x), M (snd x)) : VS_prod S S).
  assert (LKM : linear KM) by (unfold KM; split; intros; cbn; f_equal; first [apply (lin_add _ LK)|apply (lin_add _ LM)|apply (lin_scale _ LK)|apply (lin_scale _ LM)]).
  pose proof (form_cs (S := VS_prod S S) KM LKM) as Q. cbn in Q. specialize (Q ltac:(intros; rewrite SK, SM; reflexivity) (u, v) (u', v')). cbn in Q. apply Q.
  intros z. pose proof (PK (fst z)). pose proof (PM (snd z)). lra.
Qed.
(** if x.x <= b |x| in the energy, then |x| <= b *)
Lemma en_le u v b : 0 <= b -> dot u (K u) + dot v (M v) <= b * en u v -> en u v <= b.
Proof.
  intros B H. rewrite <- en_sq in H. destruct (Req_dec (en u v) 0) as [E|E]; [lra|]. pose proof (en_pos u v). apply Rmult_le_reg_r with (en u v); lra.
Qed.
(** trapezoidal rule: errors before and after a step, defect d *)
Lemma trap_error eu ev ea eu' ev' ea' du dv h : 0 <= h ->
  M ea +v C ev +v K eu = v0 -> M ea' +v C ev' +v K eu' = v0 ->
  eu' = eu +v (h / 2) *v (ev +v ev') -v du -> ev' = ev +v (h / 2) *v (ea +v ea') -v dv ->
  en eu' ev' <= en eu ev + en du dv.
Proof.
  intros Hh B B' EU EV.
  assert (X : en eu' ev' * en eu' ev' - en eu ev * en eu ev = - (h / 2 * dot (ev +v ev') (C (ev +v ev'))) - (dot du (K (eu +v eu')) + dot dv (M (ev +v ev')))).
  { rewrite !en_sq. transitivity (dot (eu' -v eu) (K (eu +v eu')) + dot (ev' -v ev) (M (ev +v ev'))).
    - lin LK. lin LM. autorewrite with dot. rewrite (SK eu' eu), (dot_sym _ (K eu') eu), (SM ev' ev), (dot_sym _ (M ev') ev). ring.
    - replace (eu' -v eu) with ((h / 2) *v (ev +v ev') -v du) by (rewrite EU; vring). replace (ev' -v ev) with ((h / 2) *v (ea +v ea') -v dv) by (rewrite EV; vring).
      assert (Q : C (ev +v ev') = vopp (M (ea +v ea')) -v K (eu +v eu')).
      { lin LC. lin LM. lin LK. transitivity ((M ea +v C ev +v K eu) +v (M ea' +v C ev' +v K eu') -v (M ea +v M ea') -v (K eu +v K eu')); [vring|]. rewrite B, B'. vring. }
      rewrite Q. clear Q. set (W := ev +v ev'). set (A := ea +v ea'). set (U := eu +v eu'). clearbody W A U. autorewrite with dot. rewrite (SM A W), (dot_sym _ (M A) W). field. }
  assert (Y : - (dot du (K (eu +v eu')) + dot dv (M (ev +v ev'))) <= en du dv * (en eu ev + en eu' ev')).
  { pose proof (en_cs du dv eu ev) as Y1. pose proof (en_cs du dv eu' ev') as Y2. apply Rabs_def2' in Y1, Y2. lin LK. lin LM. autorewrite with dot. lra. }
  assert (Z : 0 <= h / 2 * dot (ev +v ev') (C (ev +v ev'))) by (apply Rmult_le_pos; [lra|apply PC]).
  pose proof (en_pos eu ev). pose proof (en_pos eu' ev'). pose proof (en_pos du dv).
  destruct (Rle_or_lt (en eu' ev') (en eu ev + en du dv)) as [|N]; [assumption|exfalso].
  assert (0 < (en eu' ev' - en eu ev - en du dv) * (en eu' ev' + en eu ev)) by (apply Rmult_lt_0_compat; lra). nra.
Qed.
(** backward Euler *)
Lemma back_error eu ev eu' ev' du dv h : 0 <= h ->
  eu' = eu +v h *v ev' -v du -> M (ev' -v ev +v dv) = vopp (h *v (C ev' +v K eu')) ->
  en eu' ev' <= en eu ev + en du dv.
Proof.
  intros Hh EU EV.
  assert (X : en eu' ev' * en eu' ev' = dot eu (K eu') + dot ev (M ev') - (dot du (K eu') + dot dv (M ev')) - h * dot ev' (C ev')).
  { rewrite en_sq. transitivity (dot (eu' -v eu +v du) (K eu') + dot (ev' -v ev +v dv) (M ev') + (dot eu (K eu') + dot ev (M ev') - (dot du (K eu') + dot dv (M ev')))).
    - autorewrite with dot. ring.
    - replace (eu' -v eu +v du) with (h *v ev') by (rewrite EU; vring). rewrite (SM _ ev'), EV, (dot_sym _ _ ev'). autorewrite with dot. ring. }
  pose proof (en_cs du dv eu' ev') as Y1. pose proof (en_cs eu ev eu' ev') as Y2. apply Rabs_def2' in Y1, Y2.
  assert (Z : 0 <= h * dot ev' (C ev')) by (apply Rmult_le_pos; [lra|apply PC]).
  pose proof (en_pos eu ev). pose proof (en_pos eu' ev'). pose proof (en_pos du dv).
  destruct (Req_dec (en eu' ev') 0) as [E|E]; [lra|]. apply Rmult_le_reg_r with (en eu' ev'); [lra|]. lra.
Qed.
Section Motion.
Variables (u v a : R -> S) (t h b : R).
Hypothesis Hh : 0 <= h.
Hypothesis DU : derives u v.
Hypothesis DV : derives v a.
Lemma dl_form f1 g1 f2 g2 (x1 x2 : S) x : derives f1 g1 -> derives f2 g2 -> dlim (fun t => dot x1 (f1 t) + dot x2 (f2 t)) x (dot x1 (g1 x) + dot x2 (g2 x)).
Proof. intros H1 H2. apply dl_plus; [apply H1|apply H2]. Qed.
Lemma back_defect j : derives a j -> (forall x, t <= x <= t + h -> en (a x) (j x) <= b) ->
  en (u (t + h) -v u t -v h *v v (t + h)) (v (t + h) -v v t -v h *v a (t + h)) <= b * (h * h) / 2.
Proof.
  intros DA B. set (du := u (t + h) -v u t -v h *v v (t + h)). set (dv := v (t + h) -v v t -v h *v a (t + h)).
  assert (B0 : 0 <= b) by (eapply Rle_trans; [apply en_pos|apply (B t); lra]).
  apply en_le; [apply Rmult_le_pos; [apply Rmult_le_pos; nra|lra]|].
  pose proof (rect_upper (fun x => dot (K du) (u x) + dot (M dv) (v x)) (fun x => dot (K du) (v x) + dot (M dv) (a x)) (fun x => dot (K du) (a x) + dot (M dv) (j x)) t h (b * en du dv) Hh) as Q.
  specialize (Q (fun x _ => dl_form _ _ _ _ _ _ x DU DV) (fun x _ => dl_form _ _ _ _ _ _ x DV DA)).
  specialize (Q ltac:(intros x Hx; cbv beta; rewrite <- SK, <- SM; pose proof (en_cs du dv (a x) (j x)) as Y; apply Rabs_def2' in Y; pose proof (Rmult_le_compat_l _ _ _ (en_pos du dv) (B x Hx)); lra)).
  cbv beta in Q. replace (b * (h * h) / 2 * en du dv) with (b * en du dv * (h * h) / 2) by field. eapply Rle_trans; [|exact Q].
  rewrite (SK du), (SM dv). unfold du at 2, dv at 2. autorewrite with dot. lra.
Qed.
Lemma trap_defect j k : derives a j -> derives j k -> (forall x, t <= x <= t + h -> en (j x) (k x) <= b) ->
  en (u (t + h) -v u t -v (h / 2) *v (v t +v v (t + h))) (v (t + h) -v v t -v (h / 2) *v (a t +v a (t + h))) <= b * (h * h * h) / 12.
Proof.
  intros DA DJ B. set (du := u (t + h) -v u t -v (h / 2) *v (v t +v v (t + h))). set (dv := v (t + h) -v v t -v (h / 2) *v (a t +v a (t + h))).
  assert (B0 : 0 <= b) by (eapply Rle_trans; [apply en_pos|apply (B t); lra]).
  assert (H3 : 0 <= h * h * h) by (repeat apply Rmult_le_pos; lra).
  apply en_le; [apply Rmult_le_pos; [apply Rmult_le_pos; lra|lra]|].
  pose proof (trap_upper (fun x => dot (K du) (u x) + dot (M dv) (v x)) (fun x => dot (K du) (v x) + dot (M dv) (a x)) (fun x => dot (K du) (a x) + dot (M dv) (j x)) (fun x => dot (K du) (j x) + dot (M dv) (k x)) t h (b * en du dv) Hh) as Q.
  specialize (Q (fun x _ => dl_form _ _ _ _ _ _ x DU DV) (fun x _ => dl_form _ _ _ _ _ _ x DV DA) (fun x _ => dl_form _ _ _ _ _ _ x DA DJ)).
  specialize (Q ltac:(intros x Hx; cbv beta; rewrite <- SK, <- SM; pose proof (en_cs du dv (j x) (k x)) as Y; apply Rabs_def2' in Y; pose proof (Rmult_le_compat_l _ _ _ (en_pos du dv) (B x Hx)); lra)).
  cbv beta in Q. replace (b * (h * h * h) / 12 * en du dv) with (b * en du dv * (h * h * h) / 12) by field. eapply Rle_trans; [|exact Q].
  rewrite (SK du), (SM dv). unfold du at 2, dv at 2. autorewrite with dot. lra.
Qed.
End Motion.
End Norm.

(** ** C105 and C106 *)
Section Convergence.
Context {S : VS}.
Variables (p : dprob S) (M C K : S -> S) (F : R -> S).
Hypothesis L : linearProb p.
Hypothesis CO : constOps p M C K.
Hypothesis HF : forall t, dp_force p t = Yes (F t).
Hypothesis SM : forall x y, dot x (M y) = dot (M x) y.
Hypothesis SK : forall x y, dot x (K y) = dot (K x) y.
Hypothesis PM : forall x, 0 <= dot x (M x).
Hypothesis PK : forall x, 0 <= dot x (K x).
Hypothesis PC : forall x, 0 <= dot x (C x).
(** a motion that satisfies the equation of motion, with its derivatives *)
Variables (u v a j : R -> S).
Hypothesis DU : derives u v.
Hypothesis DV : derives v a.
Hypothesis DA : derives a j.
Hypothesis EQ : forall x, M (a x) +v C (v x) +v K (u x) = F x.
Let LM := lp_mass L 0 M (co_mass _ _ _ _ CO 0).
Let LC := lp_damp L v0 0 C (co_damp _ _ _ _ CO v0 0).
Let LK := lp_jac L v0 0 K (co_jac _ _ _ _ CO v0 0).
(** Newmark with average acceleration, any force, any sequence of step sizes up to [hm]: the error
    in the energy norm at the end is at most that at the start plus (t' - t) hm^2/12 times the
    largest energy norm of the third derivative of (u, v). *)
Theorem C105_newmark o k hm b t l s t' s' :
  do_alpha o = 1/4 -> do_delta o = 1/2 -> derives j k ->
  M (x_A s) +v C (x_V s) +v K (x_U s) = F t ->
  Forall (fun h => 0 <= h <= hm) l -> Steps (newmark p o) t l s t' s' ->
  (forall x, t <= x <= t' -> enorm M K (j x) (k x) <= b) ->
  enorm M K (x_U s' -v u t') (x_V s' -v v t') <= enorm M K (x_U s -v u t) (x_V s -v v t) + (t' - t) * (hm * hm) / 12 * b.
Proof.
  intros Ha Hd DJ B P H. induction H as [t s|t h l s s1 t2 s2 H H1 IH]; intros BD; [lra|]. inversion P as [|? ? [P1 P2] P3]; subst.
  assert (T : t + h <= t2) by (clear - H1 P3; induction H1; [lra|]; inversion P3; subst; specialize (IHSteps H4); lra).
  destruct (C48_newmark p o t h s _ s1 L H) as (_ & EU & EV & M' & C' & K' & F' & E1 & E2 & (E3 & E4) & E5).
  rewrite (co_mass _ _ _ _ CO) in E1. injection E1 as <-. rewrite HF in E2. injection E2 as <-.
  rewrite (co_damp _ _ _ _ CO) in E3. injection E3 as <-. rewrite (co_jac _ _ _ _ CO) in E4. injection E4 as <-.
  rewrite Ha in EU. rewrite Hd in EV.
  eapply Rle_trans; [apply IH; [exact E5|exact P3|intros x Hx; apply BD; lra]|]. clear IH.
  pose proof (trap_defect M K LM LK SM SK PM PK u v a t h b P1 DU DV j k DA DJ (fun x Hx => BD x ltac:(lra))) as Q.
  pose proof (trap_error M C K LM LC LK SM SK PM PK PC (x_U s -v u t) (x_V s -v v t) (x_A s -v a t) (x_U s1 -v u (t + h)) (x_V s1 -v v (t + h)) (x_A s1 -v a (t + h))
    (u (t + h) -v u t -v (h / 2) *v (v t +v v (t + h))) (v (t + h) -v v t -v (h / 2) *v (a t +v a (t + h))) h P1) as Q2.
  match type of Q2 with ?h1 -> ?h2 -> ?h3 -> ?h4 -> _ => assert (h1); [|assert (h2); [|assert (h3); [|assert (h4)]]] end.
  - lin LM. lin LC. lin LK. transitivity ((M (x_A s) +v C (x_V s) +v K (x_U s)) -v (M (a t) +v C (v t) +v K (u t))); [vring|]. rewrite B, EQ. vring.
  - lin LM. lin LC. lin LK. transitivity ((M (x_A s1) +v C (x_V s1) +v K (x_U s1)) -v (M (a (t + h)) +v C (v (t + h)) +v K (u (t + h)))); [vring|]. rewrite E5, EQ. vring.
  - rewrite EU, EV. vfield.
  - rewrite EV. vfield.
  - specialize (Q2 H0 H2 H3 H4).
    assert (B0 : 0 <= b) by (eapply Rle_trans; [apply (en_pos M K (j t) (k t))|apply BD; lra]).
    assert (h * h * h <= h * (hm * hm)) by (rewrite Rmult_assoc; apply Rmult_le_compat_l; [assumption|]; apply Rmult_le_compat; assumption).
    assert (b * (h * h * h) <= b * (h * (hm * hm))) by (apply Rmult_le_compat_l; assumption). lra.
Qed.
(** Implicit Euler (linear): first order. *)
Theorem C106_implicit hm b t l s t' s' :
  exactGmres p -> Forall (fun h => 0 <= h <= hm) l -> Steps (implicitEuler p) t l s t' s' ->
  (forall x, t <= x <= t' -> enorm M K (a x) (j x) <= b) ->
  enorm M K (x_U s' -v u t') (x_V s' -v v t') <= enorm M K (x_U s -v u t) (x_V s -v v t) + (t' - t) * hm / 2 * b.
Proof.
  intros G P H. induction H as [t s|t h l s s1 t2 s2 H H1 IH]; intros BD; [lra|]. inversion P as [|? ? [P1 P2] P3]; subst.
  assert (T : t + h <= t2) by (clear - H1 P3; induction H1; [lra|]; inversion P3; subst; specialize (IHSteps H4); lra).
  destruct (C54_linear p t h s _ s1 L G H) as (M' & C' & K' & F' & E1 & E2 & E3 & E4 & EU & EV).
  rewrite (co_mass _ _ _ _ CO) in E1. injection E1 as <-. rewrite HF in E2. injection E2 as <-.
  rewrite (co_damp _ _ _ _ CO) in E3. injection E3 as <-. rewrite (co_jac _ _ _ _ CO) in E4. injection E4 as <-.
  eapply Rle_trans; [apply IH; [exact P3|intros x Hx; apply BD; lra]|]. clear IH.
  pose proof (back_defect M K LM LK SM SK PM PK u v a t h b P1 DU DV j DA (fun x Hx => BD x ltac:(lra))) as Q.
  pose proof (back_error M C K LM LK SM SK PM PK PC (x_U s -v u t) (x_V s -v v t) (x_U s1 -v u (t + h)) (x_V s1 -v v (t + h))
    (u (t + h) -v u t -v h *v v (t + h)) (v (t + h) -v v t -v h *v a (t + h)) h P1) as Q2.
  match type of Q2 with ?h1 -> ?h2 -> _ => assert (h1); [|assert (h2)] end.
  - rewrite EU. vring.
  - transitivity (M (x_V s1 -v x_V s) -v h *v M (a (t + h))); [lin LM; vring|]. rewrite EV, <- (EQ (t + h)). lin LC. lin LK. vring.
  - specialize (Q2 H0 H2).
    assert (B0 : 0 <= b) by (eapply Rle_trans; [apply (en_pos M K (a t) (j t))|apply BD; lra]).
    assert (h * h <= h * hm) by (apply Rmult_le_compat_l; assumption).
    assert (b * (h * h) <= b * (h * hm)) by (apply Rmult_le_compat_l; assumption). lra.
Qed.
End Convergence.
Print Assumptions C105_newmark.
Print Assumptions C106_implicit.

(** ** C107 *)
Section ConvergenceRK4.
Context {S : VS}.
Variables (p : dprob S) (M C K Minv : S -> S) (F : S).
Hypothesis CO : constOps p M C K.
Hypothesis HF : forall t, dp_force p t = Yes F.
Hypothesis HI : dp_inv p M = Some Minv.
Hypothesis IM : forall x, M (Minv x) = x.
Hypothesis LM : linear M. Hypothesis LI : linear Minv. Hypothesis LK : linear K.
Hypothesis HC : forall x, C x = v0.
Hypothesis SM : forall x y, dot x (M y) = dot (M x) y.
Hypothesis SK : forall x y, dot x (K y) = dot (K x) y.
Hypothesis PM : forall x, 0 <= dot x (M x).
Hypothesis PK : forall x, 0 <= dot x (K x).
Notation en := (enorm M K).
Notation N := (fun x => Minv (K x)).
(** one step does not enlarge an error *)
Lemma rk4_contract om h (eu ev : S) : 0 <= om -> (forall x, dot x (K x) <= om * dot x (M x)) -> h * h * om <= 8 ->
  en (eu +v h *v ev -v (h^2/2) *v N eu -v (h^3/6) *v N ev +v (h^4/24) *v N (N eu)) (ev -v h *v N eu -v (h^2/2) *v N ev +v (h^3/6) *v N (N eu) +v (h^4/24) *v N (N ev)) <= en eu ev.
Proof.
  intros PO HO Hh. set (p0 := mkDP (dp_mass p) (dp_damp p) (dp_jac p) (fun _ => Yes (v0 : S)) (dp_res p) (dp_const p) (dp_solve p) (dp_inv p) (dp_gmres p)).
  assert (CO0 : constOps p0 M C K) by (destruct CO; split; assumption).
  set (s := mkX eu ev v0 None).
  assert (R : exists s', rk4 p0 0 h s = Done (Fin Success) s').
  { unfold rk4, massInverse. cbv zeta. rewrite (co_mass _ _ _ _ CO0). cbn [ask rbind]. change (dp_inv p0 M) with (dp_inv p M). rewrite HI. cbn [x_inv s].
    destruct (dp_const p0); cbn [rbind]; rewrite (co_damp _ _ _ _ CO0), (co_jac _ _ _ _ CO0); cbn [ask rbind dp_force p0]; eexists; reflexivity. }
  destruct R as [s' R].
  pose proof (C104_stable p0 M C K Minv v0 CO0 (fun _ => eq_refl) HI IM LM LI LK HC SM SK 0 [h] s (0 + h) s' om (or_introl eq_refl) PM PK PO HO) as Q.
  specialize (Q ltac:(constructor; [exact Hh|constructor]) ltac:(eapply StCons; [exact R|apply StNil])).
  destruct (rk4_form p0 M C K Minv v0 CO0 (fun _ => eq_refl) HI LI LK HC 0 h s Success s' (or_introl eq_refl) R) as (_ & _ & XU & XV).
  unfold energy in Q. unfold enorm. apply sqrt_le_1_alt. rewrite !dot_0_l in Q. cbn [x_U x_V s] in Q, XU, XV.
  assert (A : Minv (v0 -v K eu) = vopp (N eu)) by (lin LI; vring). rewrite A in XU, XV.
  match goal with |- dot ?x _ + dot ?y _ <= _ => replace x with (x_U s'); [replace y with (x_V s'); [lra|]|] end.
  - rewrite XV. repeat first [rewrite (lin_opp LK) | rewrite (lin_opp LI)]. vring.
  - rewrite XU. repeat first [rewrite (lin_opp LK) | rewrite (lin_opp LI)]. vring.
Qed.
Lemma inv_sym x y : dot x (Minv y) = dot (Minv x) y.
Proof. rewrite <- (IM x) at 1. rewrite <- SM, IM. reflexivity. Qed.
Lemma derives_N (f g : R -> S) : derives f g -> derives (fun x => N (f x)) (fun x => N (g x)).
Proof.
  intros H z x. assert (E : forall y, dot z (N y) = dot (K (Minv z)) y) by (intros y; cbv beta; rewrite inv_sym, SK; reflexivity).
  rewrite E. intros eps He. destruct (H (K (Minv z)) x eps He) as [d Hd]. exists d. intros y Hy Hl. rewrite !E. apply Hd; assumption.
Qed.
Lemma derives_opp (f g : R -> S) : derives f g -> derives (fun x => vopp (f x)) (fun x => vopp (g x)).
Proof.
  intros H z x. assert (E : forall y : S, dot z (vopp y) = dot (vopp z) y) by (intros; autorewrite with dot; ring).
  rewrite E. intros eps He. destruct (H (vopp z) x eps He) as [d Hd]. exists d. intros y Hy Hl. rewrite !E. apply Hd; assumption.
Qed.
(** a free motion under the force F *)
Variables (u v a : R -> S).
Hypothesis DU : derives u v.
Hypothesis DV : derives v a.
Hypothesis EQ : forall x, a x = Minv (F -v K (u x)).
Lemma derives_a : derives a (fun x => vopp (N (v x))).
Proof.
  intros z x. assert (E : forall y, dot z (a y) = dot z (Minv F) + dot z (vopp (N (u y)))) by (intros y; rewrite EQ; lin LI; autorewrite with dot; ring).
  pose proof (derives_opp _ _ (derives_N _ _ DU) z x) as H. 
  intros eps He. destruct (H eps He) as [d Hd]. exists d. intros y Hy Hl. rewrite !E. specialize (Hd y Hy Hl). 
  match goal with |- Rabs (?l) < _ => match type of Hd with Rabs ?r < _ => replace l with r; [exact Hd|] end end. cbv beta. field. exact Hy.
Qed.
Lemma taylor_defect t h b : 0 <= h -> (forall x, t <= x <= t + h -> en (N (N (v x))) (N (N (a x))) <= b) ->
  en (u (t + h) -v (u t +v h *v v t +v (h^2/2) *v a t -v (h^3/6) *v N (v t) -v (h^4/24) *v N (a t)))
     (v (t + h) -v (v t +v h *v a t -v (h^2/2) *v N (v t) -v (h^3/6) *v N (a t) +v (h^4/24) *v N (N (v t)))) <= b * h^5 / 120.
Proof.
  intros Hh B. match goal with |- en ?x ?y <= _ => set (du := x); set (dv := y) end.
  assert (B0 : 0 <= b) by (eapply Rle_trans; [apply (en_pos M K (N (N (v t))) (N (N (a t))))|apply (B t); lra]).
  assert (H5 : 0 <= h^5) by (apply pow_le; exact Hh).
  apply (en_le M K PM PK); [apply Rmult_le_pos; [apply Rmult_le_pos; lra|lra]|].
  assert (DA := derives_a). assert (DJ := derives_opp _ _ (derives_N _ _ DV)). 
  assert (DK := derives_opp _ _ (derives_N _ _ DA)).
  assert (DK' : derives (fun x => vopp (N (a x))) (fun x => N (N (v x)))).
  { intros z x. eapply dl_eq; [apply DK|]. cbv beta. repeat first [rewrite (lin_opp LK) | rewrite (lin_opp LI)]. autorewrite with dot. ring. }
  assert (DL := derives_N _ _ (derives_N _ _ DV)).
  pose proof (taylor_upper (fun x => dot (K du) (u x) + dot (M dv) (v x)) (fun x => dot (K du) (v x) + dot (M dv) (a x)) (fun x => dot (K du) (a x) + dot (M dv) (vopp (N (v x))))
    (fun x => dot (K du) (vopp (N (v x))) + dot (M dv) (vopp (N (a x)))) (fun x => dot (K du) (vopp (N (a x))) + dot (M dv) (N (N (v x)))) (fun x => dot (K du) (N (N (v x))) + dot (M dv) (N (N (a x)))) t h (b * en du dv) Hh) as Q.
  specialize (Q (fun x _ => dl_form _ _ _ _ _ _ x DU DV) (fun x _ => dl_form _ _ _ _ _ _ x DV DA) (fun x _ => dl_form _ _ _ _ _ _ x DA DJ) (fun x _ => dl_form _ _ _ _ _ _ x DJ DK') (fun x _ => dl_form _ _ _ _ _ _ x DK' DL)).
  specialize (Q ltac:(intros x Hx; cbv beta; rewrite <- SK, <- SM; pose proof (en_cs M K LM LK SM SK PM PK du dv (N (N (v x))) (N (N (a x)))) as Y; cbv beta in Y; apply Rabs_def2' in Y; pose proof (Rmult_le_compat_l _ _ _ (en_pos M K du dv) (B x Hx)); cbv beta in *; lra)).
  cbv beta in Q. replace (b * h ^ 5 / 120 * en du dv) with (b * en du dv * h ^ 5 / 120) by field. eapply Rle_trans; [|exact Q].
  rewrite (SK du), (SM dv). unfold du at 2, dv at 2. autorewrite with dot. lra.
Qed.
(** Runge-Kutta 4 below its stability limit, undamped, constant force: fourth order. *)
Theorem C107_rk4 om hm b t l s t' s' :
  0 <= om -> (forall x, dot x (K x) <= om * dot x (M x)) -> (x_inv s = None \/ x_inv s = Some Minv) ->
  Forall (fun h => 0 <= h <= hm /\ h * h * om <= 8) l -> Steps (rk4 p) t l s t' s' ->
  (forall x, t <= x <= t' -> en (N (N (v x))) (N (N (a x))) <= b) ->
  en (x_U s' -v u t') (x_V s' -v v t') <= en (x_U s -v u t) (x_V s -v v t) + (t' - t) * hm^4 / 120 * b.
Proof.
  intros PO HO HX P H. revert HX. induction H as [t s|t h l s s1 t2 s2 H H1 IH]; intros HX BD; [lra|]. inversion P as [|? ? [[P1 P2] PL] P3]; subst.
  assert (T : t + h <= t2) by (clear - H1 P3; induction H1; [lra|]; inversion P3; subst; specialize (IHSteps H4); lra).
  destruct (rk4_form p M C K Minv F CO HF HI LI LK HC t h s Success s1 HX H) as (_ & HX1 & XU & XV). cbv zeta in XU, XV.
  eapply Rle_trans; [apply IH; [exact P3|exact HX1|intros x Hx; apply BD; lra]|]. clear IH.
  pose proof (taylor_defect t h b P1 (fun x Hx => BD x ltac:(lra))) as Q. cbv beta in Q.
  match type of Q with en ?x ?y <= _ => set (du := x) in Q; set (dv := y) in Q end.
  pose proof (rk4_contract om h (x_U s -v u t) (x_V s -v v t) PO HO PL) as Q2. cbv beta in Q2.
  match type of Q2 with en ?x ?y <= _ => set (ru := x) in Q2; set (rv := y) in Q2 end.
  assert (EU : x_U s1 -v u (t + h) = ru -v du).
  { unfold ru, du. rewrite XU, EQ. repeat first [progress lin LI | progress lin LK]. vring. }
  assert (EV : x_V s1 -v v (t + h) = rv -v dv).
  { unfold rv, dv. rewrite XV, EQ. repeat first [progress lin LI | progress lin LK]. vring. }
  assert (TR : en (ru -v du) (rv -v dv) <= en ru rv + en du dv).
  { pose proof (en_pos M K ru rv). pose proof (en_pos M K du dv). apply Rsqr_incr_0_var; [|lra]. unfold Rsqr.
    replace ((en ru rv + en du dv) * (en ru rv + en du dv)) with (en ru rv * en ru rv + en du dv * en du dv + 2 * (en du dv * en ru rv)) by ring.
    rewrite !(en_sq M K PM PK). lin LK. lin LM. autorewrite with dot. pose proof (en_cs M K LM LK SM SK PM PK du dv ru rv) as Y. apply Rabs_def2' in Y.
    rewrite (SK ru du), (dot_sym _ (K ru) du), (SM rv dv), (dot_sym _ (M rv) dv). lra. }
  rewrite <- EU, <- EV in TR.
  assert (B0 : 0 <= b) by (eapply Rle_trans; [apply (en_pos M K (N (N (v t))) (N (N (a t))))|apply BD; lra]).
  assert (h^4 <= hm^4) by (apply pow_incr; lra).
  assert (h^5 <= h * hm^4) by (replace (h^5) with (h * h^4) by ring; apply Rmult_le_compat_l; assumption).
  assert (b * h^5 <= b * (h * hm^4)) by (apply Rmult_le_compat_l; assumption). lra.
Qed.
End ConvergenceRK4.
Print Assumptions C107_rk4.

(** *** Example: u'' + u = 0, u = cos t *)
Lemma derives_cos : derives (S := VS_R) cos (fun t => - sin t).
Proof. intros z x. cbn. eapply dl_eq; [apply dl_mult; [apply dl_const|apply derivable_pt_lim_cos]|]. cbn. ring. Qed.
Lemma derives_sin : derives (S := VS_R) sin cos.
Proof. intros z x. cbn. eapply dl_eq; [apply dl_mult; [apply dl_const|apply derivable_pt_lim_sin]|]. cbn. ring. Qed.
Lemma derives_mcos : derives (S := VS_R) (fun t => - cos t) sin.
Proof. intros z x. cbn. eapply dl_eq; [apply (dl_mult (fun _ => z) (fun t => - cos t)); [apply dl_const|apply derivable_pt_lim_opp, derivable_pt_lim_cos]|]. cbn. ring. Qed.
Lemma derives_msin : derives (S := VS_R) (fun t => - sin t) (fun t => - cos t).
Proof. intros z x. cbn. eapply dl_eq; [apply (dl_mult (fun _ => z) (fun t => - sin t)); [apply dl_const|apply derivable_pt_lim_opp, derivable_pt_lim_sin]|]. cbn. ring. Qed.
Lemma en_one (x y : R) : x * x + y * y = 1 -> enorm (S := VS_R) (fun x => 1 * x) (fun x => 1 * x) x y = 1.
Proof. intros H. unfold enorm. cbn. replace (x * (1 * x) + y * (1 * y)) with 1 by lra. apply sqrt_1. Qed.
Lemma trig1 x : sin x * sin x + cos x * cos x = 1.
Proof. pose proof (sin2_cos2 x) as H. unfold Rsqr in H. exact H. Qed.
(** ten steps of a tenth with each of the methods: the error bounds at t = 1 *)
Definition one10 : list R := repeat (1/10) 10.
Notation osc1 := (osc2 1 0 1 (fun _ => 0)).
Lemma steps_exist f (P : xst VS_R -> Prop) : (forall t s, P s -> exists s', f t (1/10) s = Done (Fin Success) s' /\ P s') -> forall n t s, P s -> exists t' s', Steps f t (repeat (1/10) n) s t' s' /\ t' = t + INR n / 10.
Proof.
  intros H n. induction n as [|n IH]; intros t s Ps; [exists t, s; split; [apply StNil|cbn; lra]|].
  destruct (H t s Ps) as (s1 & H1 & P1). destruct (IH (t + 1/10) s1 P1) as (t' & s' & H2 & E). exists t', s'. split; [cbn [repeat]; eapply StCons; eassumption|]. rewrite E, S_INR. lra.
Qed.
Lemma en_abs x y b : enorm (S := VS_R) (fun x => 1 * x) (fun x => 1 * x) x y <= b -> Rabs x <= b /\ Rabs y <= b.
Proof.
  intros H. assert (B0 : 0 <= b) by (eapply Rle_trans; [apply sqrt_pos|exact H]).
  assert (Q : x * x + y * y <= b * b).
  { unfold enorm in H. cbn in H. assert (Z : 0 <= x * (1 * x) + y * (1 * y)) by nra. pose proof (sqrt_sqrt _ Z) as E. pose proof (sqrt_pos (x * (1 * x) + y * (1 * y))). nra. }
  split; apply Rabs_le; nra.
Qed.
Lemma one10_small hm : 1/10 <= hm -> Forall (fun h => 0 <= h <= hm) one10.
Proof. intros H. apply Forall_forall. intros x Hx. apply repeat_spec in Hx. subst. lra. Qed.
Lemma enZ : enorm (S := VS_R) (fun x => 1 * x) (fun x => 1 * x) (@vsub VS_R 1 (cos 0)) (@vsub VS_R 0 (- sin 0)) = 0.
Proof. unfold enorm. cbn. rewrite cos_0, sin_0. match goal with |- sqrt ?x = 0 => replace x with 0 by ring end. apply sqrt_0. Qed.
Example C105_example : exists t' s', Steps (newmark osc1 (trap 1)) 0 one10 (mkX (S := VS_R) 1 0 (-1) None) t' s' /\
  t' = 1 /\ Rabs (x_U s' - cos 1) <= 1/1200 /\ Rabs (x_V s' + sin 1) <= 1/1200.
Proof.
  destruct (steps_exist (newmark osc1 (trap 1)) (fun _ => True)) with (n := 10%nat) (t := 0) (s := mkX (S := VS_R) 1 0 (-1) None) as (t' & s' & H & E); [|exact I|].
  { intros t s _. unfold newmark. cbn. rewrite (proj2 (Reqb_false _ _)) by lra. rewrite (proj2 (Reqb_true _ _)) by (field; lra). eexists. split; [reflexivity|exact I]. }
  exists t', s'. split; [exact H|]. assert (T : t' = 1) by (rewrite E; cbn; lra). split; [exact T|].
  pose proof (C105_newmark osc1 (fun x => 1 * x) (fun x => 0 * x) (fun x => 1 * x) (fun _ => 0) (osc2_linear _ _ _ _) ltac:(split; reflexivity) (fun _ => eq_refl)
    ltac:(intros; cbn; ring) ltac:(intros; cbn; ring) ltac:(intros; cbn; nra) ltac:(intros; cbn; nra) ltac:(intros; cbn; nra)
    cos (fun t => - sin t) (fun t => - cos t) sin derives_cos derives_msin derives_mcos ltac:(intros; cbn; ring) (trap 1) cos (1/10) 1 0 one10 (mkX (S := VS_R) 1 0 (-1) None) t' s' eq_refl eq_refl derives_sin ltac:(cbn; lra) (one10_small (1/10) ltac:(lra)) H) as Q.
  specialize (Q ltac:(intros x Hx; rewrite en_one; [lra|apply trig1])). rewrite T in Q. cbn [x_U x_V] in Q.
  rewrite enZ in Q. apply en_abs in Q. cbn in Q.
  destruct Q as [Q1 Q2]. match type of Q1 with Rabs ?l <= _ => replace l with (x_U s' - cos 1) in Q1 by (cbn; ring) end. match type of Q2 with Rabs ?l <= _ => replace l with (x_V s' + sin 1) in Q2 by (cbn; ring) end. split; lra.
Qed.
Example C106_example : exists t' s', Steps (implicitEuler osc1) 0 one10 (mkX (S := VS_R) 1 0 (-1) None) t' s' /\
  t' = 1 /\ Rabs (x_U s' - cos 1) <= 1/20 /\ Rabs (x_V s' + sin 1) <= 1/20.
Proof.
  destruct (steps_exist (implicitEuler osc1) (fun _ => True)) with (n := 10%nat) (t := 0) (s := mkX (S := VS_R) 1 0 (-1) None) as (t' & s' & H & E); [|exact I|].
  { intros t s _. unfold implicitEuler. cbn. unfold gmres2. cbn. rewrite (proj2 (Reqb_false _ _)) by lra. rewrite !(proj2 (Reqb_true _ _)) by (field; lra). eexists. split; [reflexivity|exact I]. }
  exists t', s'. split; [exact H|]. assert (T : t' = 1) by (rewrite E; cbn; lra). split; [exact T|].
  pose proof (C106_implicit osc1 (fun x => 1 * x) (fun x => 0 * x) (fun x => 1 * x) (fun _ => 0) (osc2_linear _ _ _ _) ltac:(split; reflexivity) (fun _ => eq_refl)
    ltac:(intros; cbn; ring) ltac:(intros; cbn; ring) ltac:(intros; cbn; nra) ltac:(intros; cbn; nra) ltac:(intros; cbn; nra)
    cos (fun t => - sin t) (fun t => - cos t) sin derives_cos derives_msin derives_mcos ltac:(intros; cbn; ring) (1/10) 1 0 one10 (mkX (S := VS_R) 1 0 (-1) None) t' s' (osc2_gmres _ _ _ _) (one10_small (1/10) ltac:(lra)) H) as Q.
  specialize (Q ltac:(intros x Hx; rewrite en_one; [lra|pose proof (trig1 x); lra])). rewrite T in Q. cbn [x_U x_V] in Q. rewrite enZ in Q. apply en_abs in Q. cbn in Q.
  destruct Q as [Q1 Q2]. match type of Q1 with Rabs ?l <= _ => replace l with (x_U s' - cos 1) in Q1 by (cbn; ring) end. match type of Q2 with Rabs ?l <= _ => replace l with (x_V s' + sin 1) in Q2 by (cbn; ring) end. split; lra.
Qed.
Example C107_example : exists t' s', Steps (rk4 osc1) 0 one10 (mkX (S := VS_R) 1 0 (-1) None) t' s' /\
  t' = 1 /\ Rabs (x_U s' - cos 1) <= 1/1200000 /\ Rabs (x_V s' + sin 1) <= 1/1200000.
Proof.
  set (Mi := fun x => x / (1 * 1)).
  assert (HI : dp_inv osc1 (fun x => 1 * x) = Some Mi) by (cbn; rewrite (proj2 (Reqb_false _ _)) by lra; reflexivity).
  destruct (steps_exist (rk4 osc1) (fun s => x_inv s = None \/ x_inv s = Some Mi)) with (n := 10%nat) (t := 0) (s := mkX (S := VS_R) 1 0 (-1) None) as (t' & s' & H & E); [|left; reflexivity|].
  { intros t s P. unfold rk4, massInverse. cbv zeta. replace (dp_mass osc1 t) with (Yes (fun x : VS_R => 1 * x : VS_R)) by reflexivity. cbn [ask rbind]. rewrite HI. change (dp_const osc1) with true. destruct P as [P|P]; rewrite P; cbn [rbind]; eexists; (split; [reflexivity|]); cbn; auto. }
  exists t', s'. split; [exact H|]. assert (T : t' = 1) by (rewrite E; cbn; lra). split; [exact T|].
  pose proof (C107_rk4 osc1 (fun x => 1 * x) (fun x => 0 * x) (fun x => 1 * x) Mi 0 ltac:(split; reflexivity) (fun _ => eq_refl) HI ltac:(intros x; unfold Mi; cbn; field)
    ltac:(split; intros; cbn; ring) ltac:(split; intros; unfold Mi; cbn; field) ltac:(split; intros; cbn; ring) ltac:(intros; cbn; ring)
    ltac:(intros; cbn; ring) ltac:(intros; cbn; ring) ltac:(intros; cbn; nra) ltac:(intros; cbn; nra)
    cos (fun t => - sin t) (fun t => - cos t) derives_cos derives_msin ltac:(intros; unfold Mi; cbn; field) 1 (1/10) 1 0 one10 (mkX (S := VS_R) 1 0 (-1) None) t' s' ltac:(lra) ltac:(intros; cbn; lra) (or_introl eq_refl)) as Q.
  specialize (Q ltac:(apply Forall_forall; intros x Hx; apply repeat_spec in Hx; subst; lra) H).
  specialize (Q ltac:(intros x Hx; cbv beta; unfold Mi; rewrite en_one; [lra|pose proof (trig1 x); field_simplify; lra])). rewrite T in Q. cbn [x_U x_V] in Q. rewrite enZ in Q. apply en_abs in Q. cbn in Q.
  destruct Q as [Q1 Q2]. match type of Q1 with Rabs ?l <= _ => replace l with (x_U s' - cos 1) in Q1 by (cbn; ring) end. match type of Q2 with Rabs ?l <= _ => replace l with (x_V s' + sin 1) in Q2 by (cbn; ring) end. split; lra.
Qed.
