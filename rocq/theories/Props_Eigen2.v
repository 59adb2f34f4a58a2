(** C131: the power method and the eigenvalue of smallest magnitude *)
From Verif Require Import Prelude VS Status Static Eigen Props_Static7 Props_Eigen.
Local Open Scope R_scope.

(** The symmetric problem A x = l B x with A positive, bounded by m and M, and its inverse Ai. The
    eigenvalue l > 0 with the eigenvector p (of length one in the norm of A) is separated from the
    others by the factor r: on the A-complement of p the Rayleigh quotient of B is at most r / l in
    absolute value. *)
Record lowest {S : VS} (A B Ai : S -> S) (m M l r : R) (p : S) : Prop := {
  lw_A : linear A;
  lw_B : linear B;
  lw_sA : forall x y, dot (A x) y = dot x (A y);
  lw_sB : forall x y, dot (B x) y = dot x (B y);
  lw_i1 : forall x, Ai (A x) = x;
  lw_i2 : forall x, A (Ai x) = x;
  lw_m : 0 < m;
  lw_bnd : forall x, m * dot x x <= dot x (A x) <= M * dot x x;
  lw_l : 0 < l;
  lw_r : 0 < r < 1;
  lw_p : dot p (A p) = 1;
  lw_eig : A p = l *v B p;
  lw_gap : forall x, dot p (A x) = 0 -> Rabs (dot x (B x)) <= r / l * dot x (A x) }.

Lemma abs_le x y : Rabs x <= y -> - y <= x <= y.
Proof. intros Q. pose proof (Rle_abs x). pose proof (Rle_abs (- x)) as P. rewrite Rabs_Ropp in P. lra. Qed.
(** two unit vectors on the rays of X and Y *)
Lemma unit_dist {S : VS} (x y X Y : S) a b : norm x = 1 -> norm y = 1 -> 0 < a -> 0 < b -> x = a *v X -> y = b *v Y -> norm (x -v y) <= 2 * a * norm (X -v Y).
Proof.
  intros Nx Ny Pa Pb Ex Ey.
  replace (x -v y) with (a *v (X -v Y) +v (a - b) *v Y) by (rewrite Ex, Ey; vring).
  eapply Rle_trans; [apply norm_triangle|]. rewrite !norm_scale, (Rabs_right a) by lra.
  rewrite Ex, norm_scale, (Rabs_right a) in Nx by lra. rewrite Ey, norm_scale, (Rabs_right b) in Ny by lra.
  assert (T1 : norm X <= norm (X -v Y) + norm Y). { replace X with ((X -v Y) +v Y) at 1 by vring. apply norm_triangle. }
  assert (T2 : norm Y <= norm (X -v Y) + norm X). { replace Y with (vopp (X -v Y) +v X) at 1 by vring. eapply Rle_trans; [apply norm_triangle|]. rewrite norm_opp. lra. }
  assert (K : Rabs (a - b) * norm Y <= a * norm (X -v Y)).
  { rewrite <- (Rabs_right (norm Y)) by (apply Rle_ge, norm_pos). rewrite <- Rabs_mult. replace ((a - b) * norm Y) with (a * norm Y - a * norm X) by lra.
    replace (a * norm Y - a * norm X) with (a * (norm Y - norm X)) by ring. rewrite Rabs_mult, (Rabs_right a) by lra. apply Rmult_le_compat_l; [lra|]. apply Rabs_le. lra. }
  lra.
Qed.

Section Power.
Context {S : VS}.
Variables A B Ai : S -> S.
Variables m M l r : R.
Variable p : S.
Hypothesis H : lowest A B Ai m M l r p.
Let D := fun x => Ai (B x).
Let mu := 1 / l.
Lemma mu_pos : 0 < mu. Proof. unfold mu. apply Rdiv_lt_0_compat; [lra|apply (lw_l _ _ _ _ _ _ _ _ H)]. Qed.
Lemma A_pos x : 0 <= dot x (A x).
Proof. pose proof (proj1 (lw_bnd _ _ _ _ _ _ _ _ H x)). pose proof (lw_m _ _ _ _ _ _ _ _ H). pose proof (dot_pos S x). nra. Qed.
Lemma A_zero x : dot x (A x) = 0 -> x = v0.
Proof. intros Z. pose proof (proj1 (lw_bnd _ _ _ _ _ _ _ _ H x)). pose proof (lw_m _ _ _ _ _ _ _ _ H). pose proof (dot_pos S x). apply dot_zero. nra. Qed.
Definition TA : VS := VS_mass A (lw_sA _ _ _ _ _ _ _ _ H) A_pos A_zero.
Definition na (x : S) : R := @norm TA x.
Lemma na_sq x : na x * na x = dot x (A x). Proof. exact (@norm_sq TA x). Qed.
Lemma na_pos x : 0 <= na x. Proof. exact (@norm_pos TA x). Qed.
Lemma na_tri x y : na (x +v y) <= na x + na y. Proof. exact (@norm_triangle TA x y). Qed.
Lemma na_scale a x : na (a *v x) = Rabs a * na x. Proof. exact (@norm_scale TA a x). Qed.
Lemma na_opp x : na (vopp x) = na x. Proof. exact (@norm_opp TA x). Qed.
Lemma m_le_M : m <= M.
Proof.
  pose proof (lw_bnd _ _ _ _ _ _ _ _ H p) as Q. rewrite (lw_p _ _ _ _ _ _ _ _ H) in Q. pose proof (dot_pos S p) as P0. pose proof (lw_m _ _ _ _ _ _ _ _ H).
  assert (0 < dot p p) by (destruct P0 as [P0|P0]; [exact P0|rewrite <- P0 in Q; lra]). nra.
Qed.
Let sm := sqrt m.
Let sM := sqrt M.
Lemma sm_pos : 0 < sm. Proof. apply sqrt_lt_R0, (lw_m _ _ _ _ _ _ _ _ H). Qed.
Lemma sm_sM : sm <= sM. Proof. apply sqrt_le_1_alt, m_le_M. Qed.
Lemma sM_pos : 0 < sM. Proof. pose proof sm_pos. pose proof sm_sM. lra. Qed.
Lemma na_lo x : sm * norm x <= na x.
Proof.
  assert (E : sm * norm x = sqrt (m * dot x x)). { unfold sm, norm. rewrite <- sqrt_mult; [reflexivity|pose proof (lw_m _ _ _ _ _ _ _ _ H); lra|apply dot_pos]. }
  rewrite E. unfold na, norm. apply sqrt_le_1_alt. exact (proj1 (lw_bnd _ _ _ _ _ _ _ _ H x)).
Qed.
Lemma na_hi x : na x <= sM * norm x.
Proof.
  assert (E : sM * norm x = sqrt (M * dot x x)). { unfold sM, norm. rewrite <- sqrt_mult; [reflexivity|pose proof (lw_m _ _ _ _ _ _ _ _ H); pose proof m_le_M; lra|apply dot_pos]. }
  rewrite E. unfold na, norm. apply sqrt_le_1_alt. exact (proj2 (lw_bnd _ _ _ _ _ _ _ _ H x)).
Qed.
Lemma norm_le_na x : norm x <= na x / sm.
Proof. pose proof sm_pos. apply Rmult_le_reg_l with sm; [lra|]. replace (sm * (na x / sm)) with (na x) by (field; lra). apply na_lo. Qed.

(** the component along p and the rest *)
Definition al (x : S) : R := dot p (A x).
Definition qq (x : S) : S := x -v al x *v p.
Lemma split_x x : x = al x *v p +v qq x. Proof. unfold qq. vring. Qed.
Lemma al_add x y : al (x +v y) = al x + al y. Proof. unfold al. rewrite (lin_add _ (lw_A _ _ _ _ _ _ _ _ H)). autorewrite with dot. ring. Qed.
Lemma al_scale a x : al (a *v x) = a * al x. Proof. unfold al. rewrite (lin_scale _ (lw_A _ _ _ _ _ _ _ _ H)). autorewrite with dot. ring. Qed.
Lemma al_p : al p = 1. Proof. exact (lw_p _ _ _ _ _ _ _ _ H). Qed.
Lemma al_sub x y : al (x -v y) = al x - al y.
Proof. unfold vsub, vopp. rewrite al_add, al_scale. ring. Qed.
Lemma al_q x : al (qq x) = 0. Proof. unfold qq. rewrite al_sub, al_scale, al_p. ring. Qed.
Lemma qq_scale a x : qq (a *v x) = a *v qq x. Proof. unfold qq. rewrite al_scale. vring. Qed.
Lemma qq_sub x y : qq (x -v y) = qq x -v qq y. Proof. unfold qq. rewrite al_sub. vring. Qed.
Lemma pyth x : dot x (A x) = al x * al x + na (qq x) * na (qq x).
Proof.
  rewrite na_sq. assert (Z : dot p (A (qq x)) = 0) by apply al_q.
  assert (Z' : dot (qq x) (A p) = 0) by (rewrite <- (lw_sA _ _ _ _ _ _ _ _ H), dot_sym; exact Z).
  rewrite (split_x x) at 1 2. rewrite (lin_add _ (lw_A _ _ _ _ _ _ _ _ H)), (lin_scale _ (lw_A _ _ _ _ _ _ _ _ H)).
  autorewrite with dot. rewrite Z, Z', (lw_p _ _ _ _ _ _ _ _ H). ring.
Qed.
Lemma LI : linear Ai.
Proof.
  split; intros.
  - rewrite <- (lw_i1 _ _ _ _ _ _ _ _ H (Ai x +v Ai y)), (lin_add _ (lw_A _ _ _ _ _ _ _ _ H)), !(lw_i2 _ _ _ _ _ _ _ _ H). reflexivity.
  - rewrite <- (lw_i1 _ _ _ _ _ _ _ _ H (a *v Ai x)), (lin_scale _ (lw_A _ _ _ _ _ _ _ _ H)), !(lw_i2 _ _ _ _ _ _ _ _ H). reflexivity.
Qed.
Lemma D_add x y : D (x +v y) = D x +v D y. Proof. unfold D. rewrite (lin_add _ (lw_B _ _ _ _ _ _ _ _ H)), (lin_add _ LI). reflexivity. Qed.
Lemma D_scale a x : D (a *v x) = a *v D x. Proof. unfold D. rewrite (lin_scale _ (lw_B _ _ _ _ _ _ _ _ H)), (lin_scale _ LI). reflexivity. Qed.
Lemma A_D x : A (D x) = B x. Proof. apply (lw_i2 _ _ _ _ _ _ _ _ H). Qed.
Lemma B_p : B p = mu *v A p.
Proof. rewrite (lw_eig _ _ _ _ _ _ _ _ H). pose proof (lw_l _ _ _ _ _ _ _ _ H). unfold mu. vfield; lra. Qed.
Lemma D_p : D p = mu *v p.
Proof. unfold D. rewrite B_p, (lin_scale _ LI), (lw_i1 _ _ _ _ _ _ _ _ H). reflexivity. Qed.
Lemma al_D x : al (D x) = mu * al x.
Proof. unfold al. rewrite A_D, <- (lw_sB _ _ _ _ _ _ _ _ H), B_p, dot_scale, (lw_sA _ _ _ _ _ _ _ _ H). reflexivity. Qed.
Lemma qq_D x : qq (D x) = D (qq x).
Proof. rewrite (split_x x) at 1. rewrite D_add, D_scale, D_p. unfold qq at 1. rewrite al_add, !al_scale, al_p, al_D, al_q. vring. Qed.
Lemma na_D x : al x = 0 -> na (D x) <= r * mu * na x.
Proof.
  intros Z. pose proof mu_pos as Pm. pose proof (lw_r _ _ _ _ _ _ _ _ H) as Pr. set (c := r * mu). assert (Pc : 0 < c) by (unfold c; apply Rmult_lt_0_compat; lra).
  assert (E : r / l = c). { unfold c, mu. field. pose proof (lw_l _ _ _ _ _ _ _ _ H). lra. }
  set (y := (1 / c) *v D x). assert (Zy : al y = 0) by (unfold y; rewrite al_scale, al_D, Z; ring).
  assert (G1 := lw_gap _ _ _ _ _ _ _ _ H (x +v y)). assert (G2 := lw_gap _ _ _ _ _ _ _ _ H (x -v y)). fold (al (x +v y)) (al (x -v y)) in *.
  rewrite E in *. specialize (G1 ltac:(rewrite al_add, Z, Zy; ring)). specialize (G2 ltac:(rewrite al_sub, Z, Zy; ring)).
  apply abs_le in G1, G2. destruct G1 as [_ G1]. destruct G2 as [G2 _].
  rewrite (lin_add _ (lw_A _ _ _ _ _ _ _ _ H)), (lin_add _ (lw_B _ _ _ _ _ _ _ _ H)) in G1. rewrite (lin_sub (lw_A _ _ _ _ _ _ _ _ H)), (lin_sub (lw_B _ _ _ _ _ _ _ _ H)) in G2.
  autorewrite with dot in G1, G2.
  assert (S1 : dot y (B x) = 1 / c * (na (D x) * na (D x))). { unfold y. rewrite dot_scale, <- A_D, na_sq. reflexivity. }
  assert (S2 : dot x (B y) = dot y (B x)) by (rewrite <- (lw_sB _ _ _ _ _ _ _ _ H); apply dot_sym).
  assert (S3 : dot x (A y) = dot y (A x)) by (rewrite <- (lw_sA _ _ _ _ _ _ _ _ H); apply dot_sym).
  assert (S4 : dot y (A y) = 1 / c * (1 / c) * (na (D x) * na (D x))). { unfold y. rewrite (lin_scale _ (lw_A _ _ _ _ _ _ _ _ H)), dot_scale, dot_scale_r, na_sq. ring. }
  rewrite S2, S1, S3, S4 in *. rewrite <- (na_sq x) in *.
  set (d := na (D x)) in *. set (n := na x) in *. assert (Pd : 0 <= d) by apply na_pos. assert (Pn : 0 <= n) by apply na_pos.
  assert (F : d * d <= c * n * (c * n)).
  { apply Rmult_le_reg_l with (2 * (1 / c)); [apply Rmult_lt_0_compat; [lra|apply Rdiv_lt_0_compat; lra]|].
    assert (X : c * (1 / c * (1 / c) * (d * d)) = 1 / c * (d * d)) by (field; lra). replace (2 * (1 / c) * (c * n * (c * n))) with (2 * c * (n * n)) by (field; lra). nra. }
  apply Rsqr_incr_0; [exact F|exact Pd|apply Rmult_le_pos; lra].
Qed.

(** iterates in the cone of the vectors whose rest is at most t times the component *)
Definition cone (t : R) (w : S) : Prop := 0 < al w /\ na (qq w) <= t * al w.
Lemma cone_next t w : cone t w -> D w <> v0 /\ norm (enormalize (D w)) = 1 /\ cone (r * t) (enormalize (D w)) /\ D w = norm (D w) *v enormalize (D w) /\ 0 < norm (D w).
Proof.
  intros [C1 C2]. pose proof mu_pos as Pm. pose proof (lw_r _ _ _ _ _ _ _ _ H) as Pr.
  assert (NZ : D w <> v0). { intros Z. pose proof (al_D w) as Q. rewrite Z in Q. unfold al at 1 in Q. rewrite (lin_0 (lw_A _ _ _ _ _ _ _ _ H)), dot_0_r in Q. nra. }
  destruct (enormalize_unit _ NZ) as (N1 & N2 & N3). split; [exact NZ|]. split; [exact N2|].
  assert (Pn : 0 < norm (D w)). { pose proof (norm_pos (D w)) as [Q|Q]; [exact Q|]. symmetry in Q. apply norm_zero in Q. contradiction. }
  split; [|split; [exact N3|exact Pn]].
  assert (Pi : 0 < 1 / norm (D w)) by (apply Rdiv_lt_0_compat; lra).
  unfold cone. rewrite N1, al_scale, qq_scale, na_scale, qq_D, al_D, (Rabs_right (1 / norm (D w))) by lra. split; [apply Rmult_lt_0_compat; [exact Pi|nra]|].
  replace (r * t * (1 / norm (D w) * (mu * al w))) with (1 / norm (D w) * (r * mu * (t * al w))) by ring.
  apply Rmult_le_compat_l; [lra|]. eapply Rle_trans; [apply na_D, al_q|]. apply Rmult_le_compat_l; [nra|exact C2].
Qed.
Lemma cone_mono t t' w : t <= t' -> cone t w -> cone t' w.
Proof. intros T [C1 C2]. split; [exact C1|]. nra. Qed.
Lemma al_le_sM t w : norm w = 1 -> cone t w -> al w <= sM.
Proof.
  intros N [C1 C2]. pose proof (na_hi w) as Q. rewrite N, Rmult_1_r in Q. eapply Rle_trans; [|exact Q].
  apply Rsqr_incr_0; [|lra|apply na_pos]. unfold Rsqr. rewrite na_sq, pyth. pose proof (na_pos (qq w)). nra.
Qed.
Lemma near t w : cone t w -> na ((1 / al w) *v w -v p) <= t.
Proof.
  intros [C1 C2]. replace ((1 / al w) *v w -v p) with ((1 / al w) *v qq w) by (unfold qq; vfield; lra).
  rewrite na_scale, Rabs_right by (apply Rle_ge, Rlt_le, Rdiv_lt_0_compat; lra). apply Rmult_le_reg_l with (al w); [exact C1|]. replace (al w * (1 / al w * na (qq w))) with (na (qq w)) by (field; lra). lra.
Qed.
Lemma cone_dist t x y : norm x = 1 -> norm y = 1 -> cone t x -> cone t y -> norm (x -v y) <= 4 * (sM / sm) * t.
Proof.
  intros Nx Ny Cx Cy. pose proof sm_pos as Ps. pose proof (al_le_sM t x Nx Cx) as L1. pose proof (near t x Cx) as X1. pose proof (near t y Cy) as Y1. destruct Cx as [Px _]. destruct Cy as [Py _].
  eapply Rle_trans; [apply (unit_dist x y ((1 / al x) *v x) ((1 / al y) *v y) (al x) (al y) Nx Ny Px Py); vfield; lra|].
  assert (Q : norm ((1 / al x) *v x -v (1 / al y) *v y) <= 2 * t / sm).
  { eapply Rle_trans; [apply norm_le_na|]. apply (Rmult_le_compat_r (/ sm)); [left; apply Rinv_0_lt_compat; lra|].
    replace ((1 / al x) *v x -v (1 / al y) *v y) with (((1 / al x) *v x -v p) +v vopp ((1 / al y) *v y -v p)) by vring.
    eapply Rle_trans; [apply na_tri|]. rewrite na_opp. lra. }
  assert (Q0 := norm_pos ((1 / al x) *v x -v (1 / al y) *v y)).
  replace (4 * (sM / sm) * t) with (2 * sM * (2 * t / sm)) by (field; lra).
  apply Rmult_le_compat; lra.
Qed.

Variable tol : R.
Lemma loop_success n : forall t w, norm w = 1 -> 0 <= t -> cone t w -> 4 * (sM / sm) * (r ^ n * t) < tol -> snd (powerLoop D tol (Datatypes.S n) w w) = true.
Proof.
  pose proof (lw_r _ _ _ _ _ _ _ _ H) as Pr.
  induction n as [|n IH]; intros t w N T C Q; destruct (cone_next t w C) as (_ & N' & C' & _).
  - cbn [powerLoop]. rewrite (proj2 (Rltb_true _ _)); [reflexivity|]. eapply Rle_lt_trans; [apply (cone_dist t); try assumption; eapply cone_mono; [|exact C']; nra|]. cbn [pow] in Q. lra.
  - change (snd (let v := enormalize (D w) in if Rltb (norm (v -v w)) tol then (v, true) else powerLoop D tol (Datatypes.S n) v v) = true). cbv zeta. destruct (Rltb _ _); [reflexivity|].
    apply (IH (r * t)); [exact N'|nra|exact C'|]. cbn [pow] in Q. lra.
Qed.
Lemma loop_found n : forall t w v, norm w = 1 -> 0 <= t -> cone t w -> powerLoop D tol n w w = (v, true) ->
  exists w', norm w' = 1 /\ cone t w' /\ v = enormalize (D w') /\ norm (v -v w') < tol.
Proof.
  pose proof (lw_r _ _ _ _ _ _ _ _ H) as Pr.
  induction n as [|n IH]; intros t w v N T C Q; [discriminate|]. cbn [powerLoop] in Q. destruct (Rltb _ _) eqn:E.
  - injection Q as <-. apply Rltb_true in E. exists w. auto.
  - destruct (cone_next t w C) as (_ & N' & C' & _). apply (IH t _ v N' T); [|exact Q]. eapply cone_mono; [|exact C']. nra.
Qed.
(** what the stopping test says about the vector *)
Lemma test_accuracy t w v : norm w = 1 -> 0 <= t -> cone t w -> v = enormalize (D w) -> norm (v -v w) < tol -> sM / sm * sqrt (1 + t * t) * tol <= (1 - r) / 8 ->
  na (qq v) <= 2 * sM * tol / (1 - r).
Proof.
  intros N T C Ev Q K. pose proof (lw_r _ _ _ _ _ _ _ _ H) as Pr. pose proof mu_pos as Pm. pose proof sm_pos as Ps. pose proof sM_pos as PM.
  destruct (cone_next t w C) as (_ & N' & C' & N3 & Pn). rewrite <- Ev in *. destruct C as [C1 C2].
  set (nu := norm (D w)) in *. set (s := mu / nu). assert (Psx : 0 < s) by (apply Rdiv_lt_0_compat; lra).
  assert (Vw : v = (1 / nu) *v D w) by (rewrite N3; vfield; lra).
  assert (AV : al v = s * al w) by (rewrite Vw, al_scale, al_D; unfold s; field; lra).
  assert (QV : qq v = (1 / nu) *v D (qq w)) by (rewrite Vw, qq_scale, qq_D; reflexivity).
  assert (NQ : na (qq v) <= r * s * na (qq w)).
  { rewrite QV, na_scale, Rabs_right by (apply Rle_ge, Rlt_le, Rdiv_lt_0_compat; lra). replace (r * s * na (qq w)) with (1 / nu * (r * mu * na (qq w))) by (unfold s; field; lra).
    apply Rmult_le_compat_l; [left; apply Rdiv_lt_0_compat; lra|]. apply na_D, al_q. }
  set (eps := sM * tol). assert (Eps : na (v -v w) <= eps). { eapply Rle_trans; [apply na_hi|]. unfold eps. apply Rmult_le_compat_l; lra. }
  assert (Tp : 0 < tol) by (pose proof (norm_pos (v -v w)); lra).
  assert (Pe : 0 < eps) by (apply Rmult_lt_0_compat; lra).
  (* the two components of the step *)
  pose proof (pyth (v -v w)) as Py. rewrite <- na_sq in Py. rewrite al_sub, qq_sub, AV in Py.
  pose proof (na_pos (v -v w)) as P1. pose proof (na_pos (qq v -v qq w)) as P2.
  assert (E2 : na (v -v w) * na (v -v w) <= eps * eps) by (apply Rmult_le_compat; lra).
  pose proof (Rle_0_sqr (s * al w - al w)) as E3. unfold Rsqr in E3. pose proof (Rle_0_sqr (na (qq v -v qq w))) as E4. unfold Rsqr in E4.
  assert (D1 : Rabs ((s - 1) * al w) <= eps).
  { apply Rsqr_incr_0; [|apply Rabs_pos|lra]. rewrite <- Rsqr_abs. unfold Rsqr. replace ((s - 1) * al w) with (s * al w - al w) by ring. lra. }
  assert (D2 : na (qq v -v qq w) <= eps). { apply Rsqr_incr_0; [|exact P2|lra]. unfold Rsqr. lra. }
  assert (D3 : na (qq w) <= eps + na (qq v)).
  { replace (qq w) with (vopp (qq v -v qq w) +v qq v) at 1 by vring. eapply Rle_trans; [apply na_tri|]. rewrite na_opp. lra. }
  (* the component of w is not small *)
  set (k := sqrt (1 + t * t)) in *. assert (Kk : k * k = 1 + t * t) by (apply sqrt_sqrt; nra). assert (Pk : 0 < k) by (apply sqrt_lt_R0; nra).
  assert (W : sm <= k * al w).
  { apply Rsqr_incr_0; [|lra|apply Rmult_le_pos; lra]. unfold Rsqr. pose proof (na_lo w) as Q1. rewrite N, Rmult_1_r in Q1. apply Rle_trans with (na w * na w); [apply Rmult_le_compat; lra|].
    rewrite na_sq, pyth. replace (k * al w * (k * al w)) with ((1 + t * t) * (al w * al w)) by (rewrite <- Kk; ring). pose proof (na_pos (qq w)).
    assert (na (qq w) * na (qq w) <= t * al w * (t * al w)) by (apply Rmult_le_compat; lra). lra. }
  assert (S1 : (s - 1) * al w <= (1 - r) / 8 * al w).
  { eapply Rle_trans; [apply Rle_abs|]. eapply Rle_trans; [exact D1|]. apply Rmult_le_reg_l with k; [exact Pk|].
    apply Rle_trans with ((1 - r) / 8 * sm); [|apply Rle_trans with ((1 - r) / 8 * (k * al w)); [apply Rmult_le_compat_l; lra|right; ring]].
    apply Rle_trans with (sM / sm * k * tol * sm); [right; unfold eps; field; lra|apply Rmult_le_compat_r; lra]. }
  assert (S2 : s - 1 <= (1 - r) / 8) by (apply Rmult_le_reg_r with (al w); lra).
  assert (RS : r * s <= (1 + r) / 2). { apply Rle_trans with (r * (1 + (1 - r) / 8)); [apply Rmult_le_compat_l; lra|]. nra. }
  pose proof (na_pos (qq w)) as P3.
  assert (X : na (qq v) <= (1 + r) / 2 * na (qq w)) by (eapply Rle_trans; [exact NQ|]; apply Rmult_le_compat_r; lra).
  assert (Y : (1 - r) / 2 * na (qq w) <= eps) by lra.
  assert (Z : na (qq v) <= na (qq w)) by nra.
  apply Rmult_le_reg_l with ((1 - r) / 2); [lra|]. replace ((1 - r) / 2 * (2 * sM * tol / (1 - r))) with eps by (unfold eps; field; lra).
  eapply Rle_trans; [|exact Y]. apply Rmult_le_compat_l; lra.
Qed.
Lemma quotient_accuracy v : norm v = 1 -> Rabs (dot v (D v) - mu) <= 2 * mu * (na (qq v) / sm).
Proof.
  intros N. pose proof (lw_r _ _ _ _ _ _ _ _ H) as Pr. pose proof mu_pos as Pm. pose proof sm_pos as Ps.
  assert (U : dot v v = 1) by (rewrite <- norm_sq, N; ring).
  assert (E : dot v (D v) - mu = dot v (D (qq v) -v mu *v qq v)).
  { assert (Dv : D v = mu *v v +v (D (qq v) -v mu *v qq v)). { rewrite (split_x v) at 1. rewrite D_add, D_scale, D_p. set (z := D (qq v)). unfold qq. vring. }
    rewrite Dv. rewrite !dot_add_r, dot_scale_r, U. ring. }
  rewrite E. eapply Rle_trans; [apply cauchy_schwarz|]. rewrite N, Rmult_1_l. eapply Rle_trans; [apply norm_le_na|].
  replace (2 * mu * (na (qq v) / sm)) with (2 * mu * na (qq v) / sm) by (field; lra). unfold Rdiv. apply Rmult_le_compat_r; [left; apply Rinv_0_lt_compat; lra|].
  unfold vsub. eapply Rle_trans; [apply na_tri|]. rewrite na_opp, na_scale, (Rabs_right mu) by lra. pose proof (na_D (qq v) (al_q v)). pose proof (na_pos (qq v)). assert (r * mu * na (qq v) <= mu * na (qq v)) by (apply Rmult_le_compat_r; nra). lra.
Qed.
End Power.

(** l is the eigenvalue of smallest magnitude: every other one is at least l / r in absolute value *)
Lemma lowest_smallest {S : VS} (A B Ai : S -> S) m M l r p y x : lowest A B Ai m M l r p -> x <> v0 -> A x = y *v B x -> y = l \/ l / r <= Rabs y.
Proof.
  intros H N E. pose proof (lw_r _ _ _ _ _ _ _ _ H) as Pr. pose proof (lw_l _ _ _ _ _ _ _ _ H) as Pl.
  destruct (Req_dec (dot p (A x)) 0) as [Z|Z].
  - right. pose proof (lw_gap _ _ _ _ _ _ _ _ H x Z) as G. assert (E1 : dot x (A x) = y * dot x (B x)) by (rewrite E, dot_scale_r; reflexivity).
    assert (P : 0 < dot x (A x)). { pose proof (A_pos A B Ai m M l r p H x) as [Q|Q]; [exact Q|]. exfalso. apply N. apply (A_zero A B Ai m M l r p H). auto. }
    assert (Q : dot x (A x) <= Rabs y * (r / l * dot x (A x))). { rewrite E1 at 1. eapply Rle_trans; [apply Rle_abs|]. rewrite Rabs_mult. apply Rmult_le_compat_l; [apply Rabs_pos|exact G]. }
    apply Rmult_le_reg_r with (r / l * dot x (A x)); [apply Rmult_lt_0_compat; [apply Rdiv_lt_0_compat; lra|exact P]|]. replace (l / r * (r / l * dot x (A x))) with (dot x (A x)) by (field; lra). exact Q.
  - left. assert (E1 : dot p (A x) = y * (1 / l * dot p (A x))).
    { rewrite E at 1. rewrite dot_scale_r, <- (lw_sB _ _ _ _ _ _ _ _ H), (B_p A B Ai m M l r p H), dot_scale, (lw_sA _ _ _ _ _ _ _ _ H). reflexivity. }
    apply Rmult_eq_reg_r with (1 / l * dot p (A x)); [rewrite <- E1; field; lra|]. apply Rmult_integral_contrapositive_currified; [|exact Z]. intros Q. assert (1 / l * l = 1) by (field; lra). nra.
Qed.

(** The vector of ones has a component along the eigenvector p of the smallest eigenvalue l (p is
    oriented such that it is positive), and the rest of it is at most T times this component in the
    norm of A. If 100 steps of factor r are enough, and the tolerance is small against the gap, the
    power method returns Success with an eigenvalue and a unit vector which are those of l up to a
    multiple of the tolerance. *)
Theorem C131_lowest_partial {S : VS} (L : elib S) o ones s Ai m M l r p T :
  e_stat s <> AssemblyError -> l_inv L (e_A s) = Some Ai -> lowest (e_A s) (e_B s) Ai m M l r p ->
  0 < dot p (e_A s ones) -> 0 <= T ->
  (let q := ones -v dot p (e_A s ones) *v p in dot q (e_A s q) <= T ^ 2 * dot p (e_A s ones) ^ 2) ->
  4 * sqrt (M / m) * T * r ^ 99 < eo_tol o -> sqrt (M / m) * sqrt (1 + T ^ 2) * eo_tol o <= (1 - r) / 8 ->
  exists s' v y, ePower L o ones s = Done Success s' /\ eMode 0 s' = Some (Some y, v) /\ norm v = 1 /\ 0 < dot p (e_A s v) /\
    norm (v -v dot p (e_A s v) *v p) <= 2 * sqrt (M / m) / (1 - r) * eo_tol o /\
    Rabs (y - l) <= 8 * sqrt (M / m) / (1 - r) * eo_tol o * l /\
    (forall z x, x <> v0 -> e_A s x = z *v e_B s x -> z = l \/ l / r <= Rabs z).
Proof.
  intros NA EI H P1 PT HQ HS HT.
  pose proof (lw_r _ _ _ _ _ _ _ _ H) as Pr. pose proof (lw_l _ _ _ _ _ _ _ _ H) as Pl. pose proof (lw_m _ _ _ _ _ _ _ _ H) as Pm.
  pose proof (sm_pos _ _ _ _ _ _ _ _ H) as Ps. pose proof (sm_sM _ _ _ _ _ _ _ _ H) as PsM. pose proof (m_le_M _ _ _ _ _ _ _ _ H) as PM.
  assert (KE : sqrt (M / m) = sqrt M / sqrt m) by (apply sqrt_div_alt; exact Pm). rewrite KE in *.
  set (kap := sqrt M / sqrt m) in *.
  assert (K1 : 1 <= kap). { unfold kap. apply Rmult_le_reg_r with (sqrt m); [exact Ps|]. unfold Rdiv. rewrite Rmult_assoc, Rinv_l by lra. lra. }
  assert (T1 : 1 <= sqrt (1 + T ^ 2)) by (rewrite <- sqrt_1 at 1; apply sqrt_le_1_alt; nra).
  set (tol := eo_tol o) in *. set (D := fun x => Ai (e_B s x)).
  assert (Tol : 0 < tol). { eapply Rle_lt_trans; [|exact HS]. apply Rmult_le_pos; [|apply pow_le; lra]. apply Rmult_le_pos; [lra|exact PT]. }
  assert (KT : kap * tol <= (1 - r) / 8). { eapply Rle_trans; [|exact HT]. rewrite Rmult_assoc. apply Rmult_le_compat_l; [lra|]. rewrite <- (Rmult_1_l tol) at 1. apply Rmult_le_compat_r; lra. }
  assert (Tol1 : tol <= 1) by nra.
  (* the vector of ones is in the cone *)
  assert (C0 : cone (e_A s) (e_B s) Ai m M l r p H T ones).
  { split; [exact P1|]. apply Rsqr_incr_0; [|apply na_pos|apply Rmult_le_pos; [exact PT|left; exact P1]]. unfold Rsqr. rewrite na_sq. cbv zeta in HQ. unfold qq, al. eapply Rle_trans; [exact HQ|]. right. ring. }
  destruct (cone_next _ _ _ _ _ _ _ _ H T ones C0) as (NZ & N1 & C1 & _). fold D in N1, C1, NZ. change (Ai (e_B s ones)) with (D ones) in *.
  set (w1 := enormalize (D ones)) in *.
  assert (C1' : cone (e_A s) (e_B s) Ai m M l r p H T w1) by (eapply cone_mono; [|exact C1]; nra).
  assert (LP : powerLoop D tol 100 ones v0 = powerLoop D tol 99 w1 w1).
  { change (powerLoop D tol 100 ones v0) with (let v := enormalize (D ones) in if Rltb (norm (v -v v0)) tol then (v, true) else powerLoop D tol 99 v v). cbv zeta. fold w1.
    replace (w1 -v v0) with w1 by vring. rewrite N1, (proj2 (Rltb_false 1 tol)) by lra. reflexivity. }
  assert (OK : snd (powerLoop D tol 99 w1 w1) = true).
  { apply (loop_success _ _ _ _ _ _ _ _ H tol 98 (r * T) w1 N1); [nra|exact C1|]. fold kap. replace (r ^ 98 * (r * T)) with (T * r ^ 99) by (change (r ^ 99) with (r * r ^ 98); ring). lra. }
  destruct (powerLoop D tol 99 w1 w1) as [v ok] eqn:EL. cbn [snd] in OK. subst ok.
  destruct (loop_found _ _ _ _ _ _ _ _ H tol 99 T w1 v N1 PT C1' EL) as (w & Nw & Cw & Ev & Tw).
  destruct (cone_next _ _ _ _ _ _ _ _ H T w Cw) as (_ & Nv & Cv & _). rewrite <- Ev in Nv, Cv.
  assert (HT' : kap * sqrt (1 + T * T) * tol <= (1 - r) / 8) by (replace (T * T) with (T ^ 2) by ring; exact HT).
  pose proof (test_accuracy _ _ _ _ _ _ _ _ H tol T w v Nw PT Cw Ev Tw HT') as AC.
  pose proof (quotient_accuracy _ _ _ _ _ _ _ _ H v Nv) as QA. change (Ai (e_B s v)) with (D v) in QA.
  set (nq := na (e_A s) (e_B s) Ai m M l r p H (qq (e_A s) p v)) in *.
  assert (NQ : nq / sqrt m <= 2 * kap / (1 - r) * tol).
  { apply Rle_trans with (2 * sqrt M * tol / (1 - r) / sqrt m); [apply Rmult_le_compat_r; [left; apply Rinv_0_lt_compat; lra|exact AC]|]. right. unfold kap. field. lra. }
  set (d := dot v (D v)) in *. set (e := 2 * kap / (1 - r) * tol) in *.
  assert (E4 : 2 * e <= 1 / 2). { unfold e. replace (2 * (2 * kap / (1 - r) * tol)) with (4 * (kap * tol) / (1 - r)) by (field; lra). apply Rmult_le_reg_r with (1 - r); [lra|]. unfold Rdiv at 1. rewrite Rmult_assoc, Rinv_l by lra. lra. }
  assert (Pi : 0 < 1 / l) by (apply Rdiv_lt_0_compat; lra).
  assert (DD : Rabs (d - 1 / l) <= 1 / l * (2 * e)).
  { eapply Rle_trans; [exact QA|]. replace (1 / l * (2 * e)) with (2 * (1 / l) * e) by ring. apply Rmult_le_compat_l; lra. }
  apply abs_le in DD.
  assert (Dp : 1 / 2 * (1 / l) <= d) by nra.
  assert (Dn : d <> 0) by lra.
  assert (VV : dot v v = 1) by (rewrite <- norm_sq, Nv; ring).
  exists (mkE (e_A s) (e_B s) Success [Some (1 / d)] [v]), v, (1 / d). split; [|split; [reflexivity|split; [exact Nv|split; [exact (proj1 Cv)|split; [|split]]]]].
  - unfold ePower. destruct (e_stat s); try contradiction; rewrite EI; cbv zeta; fold tol; fold D; rewrite LP; change (Ai (e_B s v)) with (D v); fold d; rewrite (proj2 (Reqb_false d 0) Dn), VV; reflexivity.
  - eapply Rle_trans; [|exact NQ]. exact (norm_le_na _ _ _ _ _ _ _ _ H (qq (e_A s) p v)).
  - replace (1 / d - l) with (- (d - 1 / l) * (l / d)) by (field; lra). rewrite Rabs_mult, Rabs_Ropp. rewrite (Rabs_right (l / d)) by (apply Rle_ge, Rlt_le, Rdiv_lt_0_compat; lra).
    assert (LD : l / d <= 2 * l * l). { apply Rmult_le_reg_r with d; [lra|]. unfold Rdiv. rewrite Rmult_assoc, Rinv_l by lra. assert (l * l * (1 / 2 * (1 / l)) <= l * l * d) by (apply Rmult_le_compat_l; nra). replace (l * l * (1 / 2 * (1 / l))) with (l / 2) in H0 by (field; lra). lra. }
    apply Rle_trans with (1 / l * (2 * e) * (2 * l * l)).
    + apply Rmult_le_compat; [apply Rabs_pos|left; apply Rdiv_lt_0_compat; lra|apply Rabs_le; lra|exact LD].
    + right. unfold e. field. lra.
  - intros z x Nx Ex. exact (lowest_smallest _ _ _ _ _ _ _ _ z x H Nx Ex).
Qed.
Print Assumptions C131_lowest_partial.
(** A = diag(1, 4), B = 1, tolerance 1/50 *)
Definition inv14 : elib (VS_prod VS_R VS_R) := mkL (S := VS_prod VS_R VS_R) (fun _ _ => No) (fun _ _ _ _ _ _ _ _ => No) (fun _ _ _ _ _ _ _ _ _ => No)
  (fun A => Some (fun x => (fst x / fst (A (1, 0)), snd x / snd (A (0, 1))))) (fun _ _ => None).
Example C131_lowest_example : exists s' v y,
  ePower inv14 (mkEO 0 4 4 3 (1/50) 0) (1, 1) (modalNew (S := VS_prod VS_R VS_R) (fun x => (fst x, 4 * snd x)) (fun x => x)) = Done Success s' /\
  eMode 0 s' = Some (Some y, v) /\ Rabs (y - 1) <= 16 / 37.
Proof.
  assert (KK : sqrt (4 / 1) = 2) by (replace (4 / 1) with (2 * 2) by field; apply sqrt_square; lra).
  destruct (C131_lowest_partial inv14 (mkEO 0 4 4 3 (1/50) 0) (1, 1) (modalNew (S := VS_prod VS_R VS_R) (fun x => (fst x, 4 * snd x)) (fun x => x))
    (fun x => (fst x / 1, snd x / (4 * 1))) 1 4 1 (1/4) (1, 0) 2) as (s' & v & y & E & F & _ & _ & _ & G & _).
  - discriminate.
  - reflexivity.
  - split; cbn; intros; try lra.
    + split; [intros [a b] [c d]|intros k [a b]]; cbn; f_equal; ring.
    + split; reflexivity.
    + destruct x as [a b]; cbn; f_equal; field.
    + destruct x as [a b]; cbn; f_equal; field.
    + destruct x as [a b]; cbn. nra.
    + f_equal; ring.
    + destruct x as [a b]; cbn in *. assert (a = 0) by lra. subst a. rewrite Rabs_right by nra. right. field.
  - cbn. lra.
  - lra.
  - cbn. lra.
  - rewrite KK. cbn [eo_tol]. assert (Q : (1 / 4) ^ 99 <= (1 / 4) ^ 6). { change 99%nat with (93 + 6)%nat. rewrite pow_add. assert ((1 / 4) ^ 93 <= 1). { rewrite <- (pow1 93). apply pow_incr. lra. } assert (0 < (1/4) ^ 6) by (apply pow_lt; lra). nra. }
    eapply Rle_lt_trans; [apply Rmult_le_compat_l; [|exact Q]; lra|]. cbn. lra.
  - rewrite KK. cbn [eo_tol]. assert (Q : sqrt (1 + 2 ^ 2) <= 9 / 4). { apply Rsqr_incr_0; [|apply sqrt_pos|lra]. rewrite Rsqr_sqrt by lra. unfold Rsqr. lra. } lra.
  - exists s', v, y. split; [exact E|]. split; [exact F|]. rewrite KK in G. cbn [eo_tol] in G. eapply Rle_trans; [exact G|]. lra.
Qed.
(** Refuted: if the vector of ones has no component along the eigenvector of the smallest eigenvalue
    the method returns Success with another eigenvalue (here 1 instead of 1/2, for the vector
    (1, -1)); if two eigenvalues are close the test is met in the second iteration, and the vector
    returned with Success is far from every eigenvector. *)
Definition R2 : VS := VS_prod VS_R VS_R.
Theorem C131_refuted (L : elib R2) Ai : l_inv L (fun x => x) = Some Ai -> (forall x, Ai x = x) ->
  (let B := fun x : R2 => (3 / 2 * fst x - 1 / 2 * snd x, 3 / 2 * snd x - 1 / 2 * fst x) : R2 in
   exists s' v, ePower L (mkEO 0 4 4 3 (1/100) 0) ((1, 1) : R2) (modalNew (S := R2) (fun x => x) B) = Done Success s' /\
     eMode 0 s' = Some (Some 1, v) /\ pair_of (fun x => x) B (1 / 2) ((1, -1) : R2)) /\
  (let B := fun x : R2 => (fst x, 999 / 1000 * snd x) : R2 in
   exists s' y v, ePower L (mkEO 0 4 4 3 (1/100) 0) ((1, 1) : R2) (modalNew (S := R2) (fun x => x) B) = Done Success s' /\
     eMode 0 s' = Some (y, v) /\ forall z x, norm x = 1 -> pair_of (fun x => x) B z x -> 1 / 2 <= norm (v -v x)).
Proof.
  intros EI ID. split; cbv zeta.
  - destruct (C59_eigenvector_partial L (mkEO 0 4 4 3 (1/100) 0) ((1, 1) : R2) (modalNew (S := R2) (fun x => x) (fun x : R2 => (3 / 2 * fst x - 1 / 2 * snd x, 3 / 2 * snd x - 1 / 2 * fst x) : R2)) 1 Ai) as (s' & v & E & F & _).
    + discriminate.
    + cbn. lra.
    + intros Q. injection Q. lra.
    + lra.
    + exact EI.
    + split; intros; rewrite !ID; reflexivity.
    + split; reflexivity.
    + split; [intros [a b] [c d]|intros k [a b]]; cbn; f_equal; ring.
    + exact ID.
    + cbn. f_equal; field.
    + exists s', v. split; [exact E|]. split; [exact F|]. unfold pair_of. cbn. f_equal; field.
  - set (B := fun x : R2 => (fst x, 999 / 1000 * snd x) : R2). set (c := 999 / 1000).
    set (pt := fun b : R => (1, b) : R2). change ((1, 1) : R2) with (pt 1).
    assert (NP : forall b, (pt b) <> v0) by (intros b Q; injection Q; lra).
    assert (NN : forall b, 1 <= norm (pt b)). { intros b. unfold norm. rewrite <- sqrt_1 at 1. apply sqrt_le_1_alt. cbn. nra. }
    assert (EN : forall k b, 0 < k -> enormalize (k *v (pt b)) = (1 / norm (pt b)) *v (pt b)).
    { intros k b K. assert (Q : k *v (pt b) <> v0) by (intros Q; injection Q; nra). destruct (enormalize_unit _ Q) as (-> & _). rewrite norm_scale, Rabs_right by lra. specialize (NN b). vfield; lra. }
    assert (BB : forall k b, B (k *v (pt b)) = k *v (pt (c * b))) by (intros; unfold B, c; cbn; f_equal; ring).
    set (D := fun x => Ai (B x)). assert (DB : forall x, D x = B x) by (intros; apply ID).
    set (v1 := (1 / norm (pt c)) *v (pt c)). set (v2 := (1 / norm (pt (c * c))) *v (pt (c * c))).
    assert (V1 : enormalize (D (pt 1)) = v1).
    { rewrite DB. replace (pt 1) with (1 *v (pt 1)) by (apply vscale_1). rewrite BB, EN by lra. unfold v1. rewrite Rmult_1_r. reflexivity. }
    assert (V2 : enormalize (D v1) = v2). { rewrite DB. unfold v1. rewrite BB, EN; [reflexivity|]. specialize (NN c). apply Rdiv_lt_0_compat; [lra|]. lra. }
    assert (U : forall b, norm ((1 / norm (pt b)) *v (pt b)) = 1).
    { intros b. specialize (NN b). rewrite norm_scale, Rabs_right by (apply Rle_ge, Rlt_le, Rdiv_lt_0_compat; lra). field. lra. }
    assert (S1 : Rltb (norm (v1 -v v0)) (1 / 100) = false). { replace (v1 -v v0) with v1 by vring. apply Rltb_false. unfold v1. rewrite (U c). lra. }
    assert (S2 : Rltb (norm (v2 -v v1)) (1 / 100) = true).
    { apply Rltb_true. eapply Rle_lt_trans; [apply (unit_dist v2 v1 (pt (c * c)) (pt c) (1 / norm (pt (c * c))) (1 / norm (pt c)) (U _) (U _)); [apply Rdiv_lt_0_compat; [lra|specialize (NN (c * c)); lra]|apply Rdiv_lt_0_compat; [lra|specialize (NN c); lra]|reflexivity|reflexivity]|].
      assert (Q1 : 1 / norm (pt (c * c)) <= 1). { specialize (NN (c * c)). apply Rmult_le_reg_r with (norm (pt (c * c))); [lra|]. unfold Rdiv. rewrite Rmult_assoc, Rinv_l by lra. lra. }
      assert (Q2 : norm ((pt (c * c)) -v (pt c)) = 999 / 1000000).
      { unfold norm. cbn. match goal with |- sqrt ?a = _ => replace a with (999 / 1000000 * (999 / 1000000)) by (unfold c; field) end. apply sqrt_square. lra. }
      rewrite Q2. lra. }
    assert (LP : powerLoop D (1 / 100) 100 (pt 1) v0 = (v2, true)).
    { change (powerLoop D (1 / 100) 100 (pt 1) v0) with (let v := enormalize (D (pt 1)) in if Rltb (norm (v -v v0)) (1 / 100) then (v, true) else
        let v' := enormalize (D v) in if Rltb (norm (v' -v v)) (1 / 100) then (v', true) else powerLoop D (1 / 100) 98 v' v'). cbv zeta. rewrite V1, S1, V2, S2. reflexivity. }
    eexists _, _, v2. split; [|split].
    + unfold ePower. cbn [e_stat modalNew e_A e_B eo_tol]. rewrite EI. fold D. rewrite LP. reflexivity.
    + reflexivity.
    + intros z x Nx Ex. destruct x as [a b]. unfold pair_of in Ex. injection Ex as Ea Eb.
      set (n2 := norm (pt (c * c))). assert (Pn2 : 1 <= n2) by apply NN.
      assert (Sq : n2 * n2 = 1 + c * c * (c * c)). { unfold n2. rewrite norm_sq. cbn. ring. }
      assert (I2 : 1 / n2 * (1 / n2) * (1 + c * c * (c * c)) = 1) by (rewrite <- Sq; field; lra).
      assert (Big : 1 / 2 <= 1 / n2 * (1 / n2)) by (unfold c in I2; lra).
      assert (Cb : a = 0 \/ b = 0).
      { destruct (Req_dec a 0) as [|Na]; [left; assumption|]. right. assert (z = 1) by (apply Rmult_eq_reg_r with a; lra). subst z. lra. }
      unfold norm. apply Rsqr_incr_0; [|lra|apply sqrt_pos]. rewrite Rsqr_sqrt by apply dot_pos. unfold v2. fold n2. set (i := 1 / n2) in *.
      unfold Rsqr. cbn. destruct Cb as [-> | ->].
      * apply Rle_trans with (i * i); [lra|]. assert (0 <= (i * (c * c) + -1 * b) * (i * (c * c) + -1 * b)) by apply Rle_0_sqr. lra.
      * apply Rle_trans with (i * i * (c * c * (c * c))); [unfold c; lra|]. assert (0 <= (i * 1 + -1 * a) * (i * 1 + -1 * a)) by apply Rle_0_sqr. lra.
Qed.
Print Assumptions C131_refuted.
Example C131_refuted_example : exists s' v, ePower inv14 (mkEO 0 4 4 3 (1/100) 0) ((1, 1) : R2) (modalNew (S := R2) (fun x => x) (fun x => (3 / 2 * fst x - 1 / 2 * snd x, 3 / 2 * snd x - 1 / 2 * fst x))) = Done Success s' /\
  eMode 0 s' = Some (Some 1, v).
Proof.
  destruct (C131_refuted inv14 (fun x => (fst x / 1, snd x / 1)) eq_refl) as [(s' & v & E & F & _) _]; [|exists s', v; split; assumption].
  intros [a b]. cbn. f_equal; field.
Qed.
