(** C130: convergence of the dynamic relaxation on linear problems *)
From Verif Require Import Prelude VS Status Static StaticRun Props_Static2 Props_Static4.
Local Open Scope R_scope.

(** ** The damped iteration v' = (1 - gam) v - A e, e' = e + v' in an arbitrary space *)
Section Damped.
Context {T : VS}.
Variable A : T -> T.
Variables gam lo del : R.
Hypothesis LA : linear A.
Hypothesis SA : forall x y, dot (A x) y = dot x (A y).
Hypothesis G : 0 < gam < 2.
Hypothesis Lo : 0 < lo.
Hypothesis De : 0 < del.
Hypothesis A1 : forall x, lo * dot x x <= dot (A x) x.
Hypothesis A2 : forall x, dot (A x) x <= (2 * (2 - gam) - del) * dot x x.
Let g := 2 - gam.
Lemma g_pos : 0 < g. Proof. unfold g. lra. Qed.
Lemma A2' x : dot (A x) x <= 2 * g * dot x x.
Proof. pose proof (A2 x). pose proof (dot_pos _ x). fold g in H. nra. Qed.
Lemma young (x y : T) : 2 * dot x y <= dot x x + dot y y.
Proof. pose proof (dot_pos _ (x -v y)) as H. autorewrite with dot in H. rewrite (dot_sym _ y x) in H. lra. Qed.
Lemma coercive (B : T -> T) (b : R) x : 0 < b -> b * dot x x <= dot (B x) x -> b * b * dot x x <= dot (B x) (B x).
Proof.
  intros Hb H. pose proof (dot_pos _ (B x -v b *v x)) as P. autorewrite with dot in P. rewrite (dot_sym _ x (B x)) in P. nra.
Qed.
Lemma A_bound w : dot (A w) (A w) <= 4 * (g * g) * dot w w.
Proof.
  pose proof g_pos as Pg. set (u := A w). set (t := / (2 * g)).
  assert (Ht : t * (2 * g) = 1) by (unfold t; field; lra). assert (Pt : 0 < t) by (unfold t; apply Rinv_0_lt_compat; lra).
  pose proof (A1 (w -v t *v u)) as H. pose proof (dot_pos _ (w -v t *v u)) as H0.
  assert (P : 0 <= dot (A (w -v t *v u)) (w -v t *v u)) by nra.
  rewrite (lin_sub LA), (lin_scale _ LA) in P. autorewrite with dot in P. fold u in P.
  rewrite (SA u w) in P. fold u in P.
  pose proof (A2' w) as Hw. fold u in Hw. pose proof (A2' u) as Hu.
  assert (X : t * t * dot (A u) u <= t * dot u u).
  { replace (t * dot u u) with (t * t * (2 * g * dot u u)) by (transitivity (t * (t * (2 * g)) * dot u u); [ring|rewrite Ht; ring]).
    apply Rmult_le_compat_l; [nra|exact Hu]. }
  assert (Y : t * dot u u <= 2 * g * dot w w) by nra.
  apply Rmult_le_reg_l with t; [exact Pt|]. replace (t * (4 * (g * g) * dot w w)) with (t * (2 * g) * (2 * g * dot w w)) by ring.
  rewrite Ht. lra.
Qed.
Definition nextV (e v : T) : T := (1 - gam) *v v -v A e.
Definition nextE (e v : T) : T := e +v nextV e v.
Definition V (e v : T) : R := dot v v + 2 / g * dot (A e) (e -v v).
Definition wOf (e v : T) : T := g *v v -v A e.
Lemma V_low e v : del / (2 * g) * dot v v + lo / (2 * g) * dot (2 *v e -v v) (2 *v e -v v) <= V e v.
Proof.
  pose proof g_pos as Pg. set (z := 2 *v e -v v).
  assert (E : V e v = dot v v - / (2 * g) * dot (A v) v + / (2 * g) * dot (A z) z).
  { unfold V, z. rewrite (lin_sub LA), (lin_scale _ LA). autorewrite with dot. rewrite (SA v e), (dot_sym _ v (A e)). field. lra. }
  rewrite E. pose proof (A2 v) as H1. pose proof (A1 z) as H2. fold g in H1.
  assert (Pi : 0 < / (2 * g)) by (apply Rinv_0_lt_compat; lra).
  assert (X : dot v v - / (2 * g) * dot (A v) v = / (2 * g) * (2 * g * dot v v - dot (A v) v)) by (field; lra).
  unfold Rdiv. rewrite X. nra.
Qed.
Lemma V_pos e v : 0 <= V e v.
Proof.
  pose proof g_pos as Pg. pose proof (V_low e v) as H. pose proof (dot_pos _ v). pose proof (dot_pos _ (2 *v e -v v)).
  assert (0 < del / (2 * g)) by (apply Rdiv_lt_0_compat; lra). assert (0 < lo / (2 * g)) by (apply Rdiv_lt_0_compat; lra). nra.
Qed.
Lemma V_v e v : dot v v <= 2 * g / del * V e v.
Proof.
  pose proof g_pos as Pg. pose proof (V_low e v) as H. pose proof (dot_pos _ (2 *v e -v v)).
  assert (0 < lo / (2 * g)) by (apply Rdiv_lt_0_compat; lra). assert (P : 0 < 2 * g / del) by (apply Rdiv_lt_0_compat; lra).
  apply Rle_trans with (2 * g / del * (del / (2 * g) * dot v v)); [right; field; lra|]. apply Rmult_le_compat_l; [lra|]. nra.
Qed.
Lemma V_e e v : dot e e <= (g / del + g / lo) * V e v.
Proof.
  pose proof g_pos as Pg. pose proof (V_low e v) as H. set (z := 2 *v e -v v) in *. pose proof (dot_pos _ z) as Pz. pose proof (dot_pos _ v) as Pv.
  assert (B1 : 0 < lo / (2 * g)) by (apply Rdiv_lt_0_compat; lra). assert (B2 : 0 < del / (2 * g)) by (apply Rdiv_lt_0_compat; lra).
  assert (Z1 : dot z z <= 2 * g / lo * V e v).
  { apply Rle_trans with (2 * g / lo * (lo / (2 * g) * dot z z)); [right; field; lra|]. apply Rmult_le_compat_l; [|nra].
    left. apply Rdiv_lt_0_compat; lra. }
  pose proof (V_v e v) as V1.
  assert (E : 4 * dot e e <= 2 * dot z z + 2 * dot v v).
  { pose proof (dot_pos _ (z -v v)) as P. assert (Q : e = (1/2) *v (z +v v)) by (unfold z; vfield).
    rewrite Q. autorewrite with dot. autorewrite with dot in P. rewrite (dot_sym _ v z) in *. lra. }
  replace ((g / del + g / lo) * V e v) with ((2 * g / lo * V e v + 2 * g / del * V e v) / 2) by (field; lra). lra.
Qed.
Lemma V_up e v : V e v <= 3 * dot v v + 8 * dot e e.
Proof.
  pose proof g_pos as Pg. set (z := 2 *v e -v v).
  assert (E : V e v = dot v v - / (2 * g) * dot (A v) v + / (2 * g) * dot (A z) z).
  { unfold V, z. rewrite (lin_sub LA), (lin_scale _ LA). autorewrite with dot. rewrite (SA v e), (dot_sym _ v (A e)). field. lra. }
  rewrite E. pose proof (A1 v) as H1. pose proof (A2' z) as H2. pose proof (dot_pos _ v) as Pv.
  assert (Pi : 0 < / (2 * g)) by (apply Rinv_0_lt_compat; lra).
  assert (X : / (2 * g) * dot (A z) z <= dot z z).
  { apply Rle_trans with (/ (2 * g) * (2 * g * dot z z)); [apply Rmult_le_compat_l; lra|right; field; lra]. }
  assert (Y : 0 <= / (2 * g) * dot (A v) v) by (apply Rmult_le_pos; nra).
  assert (Z : dot z z <= 8 * dot e e + 2 * dot v v).
  { pose proof (dot_pos _ (2 *v e +v v)) as P. unfold z. autorewrite with dot in *. rewrite (dot_sym _ v e) in *. lra. }
  lra.
Qed.
Lemma V_next e v : V (nextE e v) (nextV e v) = V e v - gam / g * dot (wOf e v) (wOf e v).
Proof.
  pose proof g_pos as Pg. unfold V, nextE, nextV, wOf.
  rewrite (lin_add _ LA), (lin_sub LA), (lin_scale _ LA). autorewrite with dot.
  rewrite ?(SA v e), ?(SA (A e) e), ?(SA (A e) v), ?(SA (A e) (A v)), ?(dot_sym _ (A v) (A e)), ?(dot_sym _ v (A e)), ?(dot_sym _ e (A e)), ?(dot_sym _ e (A v)).
  unfold g in *. field. lra.
Qed.
Lemma obs_v e v : let w := wOf e v in let w' := wOf (nextE e v) (nextV e v) in
  del * del * dot v v <= 3 * ((1 + g) * (1 + g) * dot w w + 4 * (g * g) * dot w w + dot w' w').
Proof.
  intros w w'. pose proof g_pos as Pg.
  assert (E : (2 * g) *v v -v A v = (1 + g) *v w -v A w -v w').
  { unfold w, w', wOf, nextE, nextV. rewrite ?(lin_add _ LA), ?(lin_sub LA), ?(lin_scale _ LA). rewrite ?(lin_add _ LA), ?(lin_sub LA), ?(lin_scale _ LA).
    unfold g. vring. }
  pose proof (coercive (fun x => (2 * g) *v x -v A x) del v De) as C. cbv beta in C. rewrite E in C.
  assert (H : del * dot v v <= dot ((1 + g) *v w -v A w -v w') v).
  { rewrite <- E. autorewrite with dot. pose proof (A2 v) as X. fold g in X. lra. }
  specialize (C H). pose proof (A_bound w) as B.
  pose proof (young ((1 + g) *v w) (vopp (A w))) as Y1. pose proof (young ((1 + g) *v w) (vopp w')) as Y2. pose proof (young (A w) w') as Y3.
  autorewrite with dot in C, Y1, Y2, Y3. rewrite ?(dot_sym _ (A w) w), ?(dot_sym _ w' w), ?(dot_sym _ w' (A w)) in *. lra.
Qed.
Lemma obs_e e v : let w := wOf e v in lo * lo * dot e e <= 2 * (g * g * dot v v) + 2 * dot w w.
Proof.
  intros w. pose proof (coercive A lo e Lo (A1 e)) as C. assert (E : A e = g *v v -v w) by (unfold w, wOf; vring).
  rewrite E in C. pose proof (young (g *v v) (vopp w)) as Y. autorewrite with dot in C, Y. rewrite (dot_sym _ w v) in C. lra.
Qed.
Let Kv := 3 * ((1 + g) * (1 + g) + 4 * (g * g) + 1) / (del * del).
Let Ke := (2 * (g * g * Kv) + 2) / (lo * lo).
Let K := 3 * Kv + 8 * Ke + gam / g.
Lemma K_pos : 0 < Kv /\ 0 < Ke /\ gam / g < K.
Proof.
  pose proof g_pos as Pg. assert (0 < Kv) by (apply Rdiv_lt_0_compat; nra). assert (0 < Ke) by (apply Rdiv_lt_0_compat; nra).
  split; [assumption|]. split; [assumption|]. unfold K. lra.
Qed.
(** two steps reduce V by a fixed factor *)
Definition rate2 : R := 1 - gam / g / K.
Lemma rate2_bound : 0 < rate2 < 1.
Proof.
  destruct K_pos as (K1 & K2 & K3). pose proof g_pos as Pg. assert (P : 0 < gam / g) by (apply Rdiv_lt_0_compat; lra).
  assert (0 < gam / g / K) by (apply Rdiv_lt_0_compat; lra). assert (gam / g / K < 1).
  { apply Rmult_lt_reg_r with K; [lra|]. unfold Rdiv at 1. rewrite Rmult_assoc, Rinv_l; lra. }
  unfold rate2. lra.
Qed.
Lemma V_two e v : let e1 := nextE e v in let v1 := nextV e v in V (nextE e1 v1) (nextV e1 v1) <= rate2 * V e v.
Proof.
  intros e1 v1. rewrite V_next. unfold e1 at 1, v1 at 1. rewrite V_next.
  destruct K_pos as (K1 & K2 & K3). pose proof g_pos as Pg. assert (P : 0 < gam / g) by (apply Rdiv_lt_0_compat; lra).
  pose proof (obs_v e v) as O1. pose proof (obs_e e v) as O2. cbv zeta in O1, O2. fold e1 v1 in O1.
  set (w := wOf e v) in *. set (w' := wOf e1 v1) in *. pose proof (dot_pos _ w) as Pw. pose proof (dot_pos _ w') as Pw'.
  set (W := dot w w + dot w' w').
  assert (B1 : dot v v <= Kv * W).
  { apply Rmult_le_reg_l with (del * del); [nra|]. replace (del * del * (Kv * W)) with (3 * ((1 + g) * (1 + g) + 4 * (g * g) + 1) * W) by (unfold Kv; field; lra).
    unfold W. assert (0 <= g * g) by nra. assert (0 <= (1 + g) * (1 + g)) by nra. nra. }
  assert (B2 : dot e e <= Ke * W).
  { apply Rmult_le_reg_l with (lo * lo); [nra|]. replace (lo * lo * (Ke * W)) with ((2 * (g * g * Kv) + 2) * W) by (unfold Ke; field; lra).
    assert (X : g * g * dot v v <= g * g * (Kv * W)) by (apply Rmult_le_compat_l; [nra|exact B1]). unfold W in *. lra. }
  assert (B3 : V e v <= K * W).
  { pose proof (V_up e v) as U. assert (0 <= gam / g * W) by (apply Rmult_le_pos; unfold W; lra). unfold K. lra. }
  assert (B4 : gam / g / K * V e v <= gam / g * W).
  { replace (gam / g * W) with (gam / g / K * (K * W)) by (field; lra). apply Rmult_le_compat_l; [|exact B3]. left. apply Rdiv_lt_0_compat; lra. }
  unfold rate2, W in *. lra.
Qed.
Lemma V_one e v : V (nextE e v) (nextV e v) <= V e v.
Proof.
  rewrite V_next. pose proof g_pos as Pg. assert (P : 0 < gam / g) by (apply Rdiv_lt_0_compat; lra). pose proof (dot_pos _ (wOf e v)). nra.
Qed.
Fixpoint orbit (n : nat) (a : T * T) : T * T := match n with O => a | Datatypes.S n => orbit n (nextE (fst a) (snd a), nextV (fst a) (snd a)) end.
Lemma V_orbit n : forall a, V (fst (orbit n a)) (snd (orbit n a)) <= sqrt rate2 ^ n * (V (fst a) (snd a) / sqrt rate2).
Proof.
  pose proof rate2_bound as B. assert (Pr : 0 < sqrt rate2) by (apply sqrt_lt_R0; lra).
  assert (Q : sqrt rate2 * sqrt rate2 = rate2) by (apply sqrt_sqrt; lra).
  assert (Lt : sqrt rate2 < 1) by (rewrite <- sqrt_1; apply sqrt_lt_1; lra).
  assert (Zq : forall k r q y, 0 < r -> r * r = q -> r ^ k * (q * y / r) = r ^ Datatypes.S (Datatypes.S k) * (y / r)) by (intros k r q y Hr <-; cbn [pow]; field; lra).
  assert (Base : forall e v, V e v <= V e v / sqrt rate2).
  { intros e v. pose proof (V_pos e v). apply Rmult_le_reg_r with (sqrt rate2); [lra|]. unfold Rdiv. rewrite Rmult_assoc, Rinv_l; nra. }
  assert (H : forall a, V (fst (orbit n a)) (snd (orbit n a)) <= sqrt rate2 ^ n * (V (fst a) (snd a) / sqrt rate2) /\
    V (fst (orbit (Datatypes.S n) a)) (snd (orbit (Datatypes.S n) a)) <= sqrt rate2 ^ (Datatypes.S n) * (V (fst a) (snd a) / sqrt rate2)).
  { induction n as [|n IH]; intros [e v].
    - cbn [orbit fst snd pow]. split; [rewrite Rmult_1_l; apply Base|]. rewrite Rmult_1_r. apply Rle_trans with (V e v); [apply V_one|].
      right. field. lra.
    - split; [exact (proj2 (IH (e, v)))|]. change (orbit (Datatypes.S (Datatypes.S n)) (e, v)) with
        (orbit n (let e1 := nextE e v in let v1 := nextV e v in (nextE e1 v1, nextV e1 v1))). cbv zeta.
      eapply Rle_trans; [exact (proj1 (IH _))|]. cbn [fst snd]. pose proof (V_two e v) as T2. cbv zeta in T2.
      replace (sqrt rate2 ^ Datatypes.S (Datatypes.S n) * (V e v / sqrt rate2)) with (sqrt rate2 ^ n * (rate2 * V e v / sqrt rate2)) by exact (Zq n (sqrt rate2) rate2 (V e v) Pr Q).
      apply Rmult_le_compat_l; [apply pow_le; lra|]. unfold Rdiv. apply Rmult_le_compat_r; [left; apply Rinv_0_lt_compat; lra|exact T2]. }
  intros a. exact (proj1 (H a)).
Qed.
(** the error and the velocity decrease geometrically *)
Lemma damped_rate : exists C r, 0 < C /\ 0 < r < 1 /\ forall a n,
  dot (fst (orbit n a)) (fst (orbit n a)) + dot (snd (orbit n a)) (snd (orbit n a)) <= C * r ^ n * (dot (fst a) (fst a) + dot (snd a) (snd a)).
Proof.
  pose proof rate2_bound as B. assert (Pr : 0 < sqrt rate2) by (apply sqrt_lt_R0; lra).
  assert (Lt : sqrt rate2 < 1) by (rewrite <- sqrt_1; apply sqrt_lt_1; lra). pose proof g_pos as Pg.
  set (c := 2 * g / del + (g / del + g / lo)). assert (Pc : 0 < c).
  { assert (0 < g / del) by (apply Rdiv_lt_0_compat; lra). assert (0 < g / lo) by (apply Rdiv_lt_0_compat; lra). unfold c. unfold Rdiv in *. lra. }
  exists (c * 8 / sqrt rate2), (sqrt rate2). split; [apply Rdiv_lt_0_compat; lra|]. split; [lra|]. intros a n.
  pose proof (V_orbit n a) as H. pose proof (V_v (fst (orbit n a)) (snd (orbit n a))) as H1. pose proof (V_e (fst (orbit n a)) (snd (orbit n a))) as H2.
  set (x := dot (fst (orbit n a)) (fst (orbit n a))) in *. set (y := dot (snd (orbit n a)) (snd (orbit n a))) in *. set (Vn := V (fst (orbit n a)) (snd (orbit n a))) in *.
  assert (X : x + y <= c * Vn) by (unfold c; lra).
  pose proof (V_up (fst a) (snd a)) as U. pose proof (dot_pos _ (snd a)) as P2.
  assert (Y : Vn <= sqrt rate2 ^ n * (8 * (dot (fst a) (fst a) + dot (snd a) (snd a)) / sqrt rate2)).
  { eapply Rle_trans; [exact H|]. apply Rmult_le_compat_l; [apply pow_le; lra|]. unfold Rdiv. apply Rmult_le_compat_r; [left; apply Rinv_0_lt_compat; lra|lra]. }
  apply Rle_trans with (c * Vn); [exact X|]. apply Rle_trans with (c * (sqrt rate2 ^ n * (8 * (dot (fst a) (fst a) + dot (snd a) (snd a)) / sqrt rate2))).
  - apply Rmult_le_compat_l; lra.
  - right. field. lra.
Qed.
End Damped.

(** ** The space with the inner product of the mass *)
Section Mass.
Context {S : VS}.
Variable M : S -> S.
Hypothesis LM : linear M.
Hypothesis SM : forall x y, dot (M x) y = dot x (M y).
Hypothesis PM : forall x, 0 <= dot x (M x).
Hypothesis ZM : forall x, dot x (M x) = 0 -> x = v0.
Definition VS_mass : VS.
Proof.
  refine (mkVS S v0 vadd vscale (fun x y => dot x (M y)) (vadd_comm S) (vadd_assoc S) (vadd_0 S) (vscale_opp S) (vscale_1 S) _ _ _ PM ZM).
  - abstract (intros x y; rewrite <- SM; apply dot_sym).
  - abstract (intros; apply dot_add).
  - abstract (intros; apply dot_scale).
Defined.
End Mass.

(** The problem p at the load L is linear: the residual is K xs - K u with a symmetric stiffness K,
    so xs is the equilibrium. K and the mass are positive, bounded from both sides where needed;
    the inverse of the mass is used with the factor sc = 1/alpha and the damping is c times the
    mass. *)
Record relaxable {S : VS} (p : gprob S) (L sc c : R) (K : S -> S) (xs : S) : Prop := {
  rl_lin : linear K;
  rl_sym : forall x y, dot (K x) y = dot x (K y);
  rl_res : forall u, gp_res p L u = Yes (K xs -v K u);
  rl_mass : linear (gp_mass p);
  rl_msym : forall x y, dot (gp_mass p x) y = dot x (gp_mass p y);
  rl_inv : forall x, gp_mass p (gp_minv p x) = x;
  rl_pos : exists k1, 0 < k1 /\ forall x, k1 * dot x x <= dot (K x) x;
  rl_mpos : exists m1 m2, 0 < m1 /\ forall x, m1 * dot x x <= dot x (gp_mass p x) <= m2 * dot x x;
  rl_sc : 0 < sc;
  rl_damp : 0 < sc * c < 2 }.
(** the stiffness lies strictly below the stability limit of the scheme *)
Definition below {S : VS} (p : gprob S) (sc c : R) (K : S -> S) : Prop :=
  exists del, 0 < del /\ forall x, sc * dot (K x) x <= (2 * (2 - sc * c) - del) * dot x (gp_mass p x).

Section Relax.
Context {S : VS}.
Variable p : gprob S.
Variables L sc c : R.
Variable K : S -> S.
Variable xs : S.
Hypothesis H : relaxable p L sc c K xs.
Notation M := (gp_mass p).
Definition Aop (x : S) : S := sc *v gp_minv p (K x).
Lemma m_pos x : 0 <= dot x (M x).
Proof. destruct (rl_mpos _ _ _ _ _ _ H) as (m1 & m2 & P & B). specialize (B x). pose proof (dot_pos _ x). nra. Qed.
Lemma m_zero x : dot x (M x) = 0 -> x = v0.
Proof.
  intros E. destruct (rl_mpos _ _ _ _ _ _ H) as (m1 & m2 & P & B). specialize (B x). pose proof (dot_pos _ x). apply dot_zero. nra.
Qed.
Lemma m_inj x y : M x = M y -> x = y.
Proof.
  intros E. apply vsub_zero_eq, m_zero. rewrite (lin_sub (rl_mass _ _ _ _ _ _ H)), E, vsub_self. apply dot_0_r.
Qed.
Lemma minv_linear : linear (gp_minv p).
Proof.
  pose proof (rl_inv _ _ _ _ _ _ H) as I. pose proof (rl_mass _ _ _ _ _ _ H) as LM.
  split; intros; apply m_inj; rewrite ?(lin_add _ LM), ?(lin_scale _ LM), !I; reflexivity.
Qed.
Lemma minv_mass x : gp_minv p (M x) = x.
Proof. apply m_inj, (rl_inv _ _ _ _ _ _ H). Qed.
Definition TM : VS := VS_mass M (rl_msym _ _ _ _ _ _ H) m_pos m_zero.
Lemma orbit_S (B : S -> S) q n : forall a, orbit B q (Datatypes.S n) a = (nextE B q (fst (orbit B q n a)) (snd (orbit B q n a)), nextV B q (fst (orbit B q n a)) (snd (orbit B q n a))).
Proof. induction n as [|n IH]; intros a; [reflexivity|]. change (orbit B q (Datatypes.S (Datatypes.S n)) a) with (orbit B q (Datatypes.S n) (nextE B q (fst a) (snd a), nextV B q (fst a) (snd a))). rewrite IH. reflexivity. Qed.
(** the points of the run from u: error and velocity after n iterations *)
Definition point (u : S) (n : nat) : S * S :=
  let v := (- (1 / 2)) *v Aop (u -v xs) in orbit Aop (sc * c) n (u -v xs +v v, v).
Section Solve.
Variable o : gopts.
Variable u : S.
Hypothesis Hc : go_damping o = c.
Hypothesis Hr : (go_resetIt o < 0)%Z.
Let ini := orOne (norm (gp_force p)).
Let E0 := dot (snd (point u 0)) (M (snd (point u 0))).
Definition resOf (i : nat) : S := (1 / sc) *v M (snd (point u i) -v snd (point u (i - 1))).
Definition testOf (i : nat) : bool :=
  ratioLt (norm (resOf i)) ini (go_tolF o) && ratioLt (dot (snd (point u i)) (M (snd (point u i)))) E0 (go_tolE o) &&
  ratioLt (norm (snd (point u i))) (norm (xs +v fst (point u i) -v u)) (go_tolU o).
Definition at_ (i : nat) (s : gst S) : Prop :=
  g_U s = u /\ g_damp s = Some c /\ g_scale s = sc /\ g_L s = L /\ g_ini s = ini /\ g_Ek0 s = E0 /\ g_V s = snd (point u i) /\
  u +v g_DU s = xs +v fst (point u i).
Lemma c_nz : c <> 0. Proof. intros ->. pose proof (rl_damp _ _ _ _ _ _ H). lra. Qed.
Lemma ini_pos : 0 < ini.
Proof. unfold ini, orOne. destruct (Reqb _ 0) eqn:E; [lra|]. apply Reqb_false in E. pose proof (norm_pos (gp_force p)). lra. Qed.
Lemma pass_at i k s : at_ i s -> (0 <= k)%Z -> exists s', drPass p o k (drSetIt (Datatypes.S i) s) = Done k s' /\ at_ (Datatypes.S i) s' /\
  g_it s' = Datatypes.S i /\ forall l, drTest o (drPush (g_Ek0 s') l s') = testOf (Datatypes.S i).
Proof.
  intros (HU & Hd & Hs & HL & Hi & He & HV & HD) Hk. unfold drPass, drIteration, drResidual, damping, massInv.
  cbn [drSetIt g_L g_U g_DU g_damp g_V g_scale g_ini g_Ek g_Ek0 g_Eks g_opts g_stat g_R g_dU g_head g_it g_rnorm g_EkPrev].
  rewrite HL, (rl_res _ _ _ _ _ _ H). cbn [rbind]. cbn [drSetIt g_L g_U g_DU g_damp g_V g_scale g_ini g_Ek g_Ek0 g_Eks g_opts g_stat g_R g_dU g_head g_it g_rnorm g_EkPrev]. rewrite Hd. cbn [rbind]. cbn [drSetIt g_L g_U g_DU g_damp g_V g_scale g_ini g_Ek g_Ek0 g_Eks g_opts g_stat g_R g_dU g_head g_it g_rnorm g_EkPrev]. rewrite HU, HD, HV, Hs, Hi, He.
  assert (N0 : Reqb ini 0 = false) by (apply Reqb_false; pose proof ini_pos; lra). rewrite N0.
  set (e := fst (point u i)). set (v := snd (point u i)).
  set (r := K xs -v K (xs +v e) -v c *v M v). pose proof (rl_lin _ _ _ _ _ _ H) as LK. pose proof (minv_linear) as LI. pose proof (rl_mass _ _ _ _ _ _ H) as LM.
  assert (P : point u (Datatypes.S i) = (nextE Aop (sc * c) e v, nextV Aop (sc * c) e v)) by (unfold point; rewrite orbit_S; reflexivity).
  assert (E1 : v +v dt *v (sc *v gp_minv p r) = snd (point u (Datatypes.S i))).
  { rewrite P. cbn [snd]. unfold nextV, Aop, r, dt. rewrite !(lin_sub LI), (lin_scale _ LI), minv_mass, (lin_add _ LK), (lin_add _ LI). vring. }
  rewrite E1. assert (E2 : norm r = norm (resOf (Datatypes.S i))).
  { f_equal. unfold resOf. cbn [Nat.sub]. rewrite Nat.sub_0_r, <- E1. fold v.
    replace (v +v dt *v (sc *v gp_minv p r) -v v) with (sc *v gp_minv p r) by (unfold dt; vring).
    rewrite (lin_scale _ LM), (rl_inv _ _ _ _ _ _ H). pose proof (rl_sc _ _ _ _ _ _ H). vfield. lra. }
  assert (B : Reqb (go_damping o) 0 = false) by (rewrite Hc; apply Reqb_false, c_nz). rewrite B. cbn [andb orb].
  assert (B2 : (k =? go_resetIt o)%Z = false) by (apply Z.eqb_neq; lia). rewrite B2.
  eexists. split; [reflexivity|]. cbn [g_L g_U g_DU g_damp g_V g_scale g_ini g_Ek g_Ek0 g_Eks g_opts g_stat g_R g_dU g_head g_it g_rnorm g_EkPrev].
  assert (E3 : u +v (g_DU s +v dt *v snd (point u (Datatypes.S i))) = xs +v fst (point u (Datatypes.S i))).
  { replace (u +v (g_DU s +v dt *v snd (point u (Datatypes.S i)))) with (u +v g_DU s +v snd (point u (Datatypes.S i))) by (unfold dt; vring).
    rewrite HD, P. cbn [fst snd]. unfold nextE. fold e. vring. }
  split; [repeat split; try assumption; try reflexivity|]. split; [reflexivity|]. intros l.
  unfold drTest, testOf, drPush, kinetic. cbn [g_L g_U g_DU g_damp g_V g_scale g_ini g_Ek g_Ek0 g_Eks g_opts g_stat g_R g_dU g_head g_it g_rnorm g_EkPrev].
  rewrite E2. do 2 f_equal.
  - f_equal. unfold dt. vring.
  - f_equal. rewrite <- E3. vring.
Qed.
Lemma loop_at n : forall i k s, at_ i s -> (0 <= k)%Z -> exists j s', (i < j <= i + Datatypes.S n)%nat /\ g_it s' = j /\ g_U s' = xs +v fst (point u j) /\
  (drLoop p o (Datatypes.S n) (Datatypes.S i) k s = Done tt s' /\ testOf j = true \/
   drLoop p o (Datatypes.S n) (Datatypes.S i) k s = Threw (XInt 1) s' /\ testOf j = false /\ j = (i + Datatypes.S n)%nat) /\
  forall m, (i < m < j)%nat -> testOf m = false.
Proof.
  induction n as [|n IH]; intros i k s Ha Hk; destruct (pass_at i k s Ha Hk) as (s1 & P1 & P2 & P3 & P4);
    remember (Datatypes.S i) as i' eqn:Ei in P1 at 1.
  - cbn [drLoop]. rewrite <- Ei, P1. cbn [rbind]. rewrite P4. exists (Datatypes.S i).
    destruct P2 as (Q1 & Q2 & Q3 & Q4 & Q5 & Q6 & Q7 & Q8). destruct (testOf (Datatypes.S i)) eqn:ET.
    + eexists. split; [lia|]. repeat split; [..|left; split; [reflexivity|first [exact ET|reflexivity]]|intros; lia]; cbn; [exact P3|rewrite Q1; exact Q8].
    + eexists. split; [lia|]. repeat split; [..|right; split; [reflexivity|split; [first [exact ET|reflexivity]|lia]]|intros; lia]; cbn; [exact P3|rewrite Q1; exact Q8].
  - remember (Datatypes.S n) as n1 eqn:En. cbn [drLoop]. rewrite <- Ei, P1. cbn [rbind]. rewrite P4.
    pose proof P2 as (Q1 & Q2 & Q3 & Q4 & Q5 & Q6 & Q7 & Q8). destruct (testOf (Datatypes.S i)) eqn:ET.
    + exists (Datatypes.S i). eexists. split; [lia|]. repeat split; [..|left; split; [reflexivity|first [exact ET|reflexivity]]|intros; lia]; cbn; [exact P3|rewrite Q1; exact Q8].
    + rewrite En. rewrite <- En, Ei.
      destruct (IH (Datatypes.S i) (k + 1)%Z (drPush (g_Ek0 s1) (g_Eks s1 ++ [g_Ek s1]) s1)) as (j & s' & J1 & J2 & J3 & J4 & J5);
        [repeat split; assumption|lia|]. exists j, s'. split; [lia|]. split; [exact J2|]. split; [exact J3|]. split.
      * destruct J4 as [J4|(J4 & J6 & J7)]; [left; exact J4|right]. split; [exact J4|]. split; [exact J6|lia].
      * intros m Hm. destruct (Nat.eq_dec m (Datatypes.S i)) as [->|]; [exact ET|apply J5; lia].
Qed.
End Solve.
(** ** The run ends with Success *)
Lemma m_par x y : dot (x -v y) (M (x -v y)) <= 2 * dot x (M x) + 2 * dot y (M y).
Proof.
  pose proof (m_pos (x +v y)) as P. pose proof (rl_mass _ _ _ _ _ _ H) as LM. rewrite (lin_add _ LM) in P. rewrite (lin_sub LM). autorewrite with dot in *.
  rewrite <- (rl_msym _ _ _ _ _ _ H x y), (dot_sym _ (M x) y) in *. lra.
Qed.
Lemma m_image : exists m, 0 < m /\ forall x, dot (M x) (M x) <= m * dot x (M x).
Proof.
  destruct (rl_mpos _ _ _ _ _ _ H) as (m1 & m2 & Hm1 & Hm). set (m := Rmax m2 1). exists m.
  assert (Pm : 0 < m) by (pose proof (Rmax_r m2 1); unfold m; lra). split; [exact Pm|]. intros x.
  pose proof (rl_mass _ _ _ _ _ _ H) as LM. pose proof (dot_pos _ (M x)) as P.
  assert (Q : dot (M x) (M (M x)) <= m * dot (M x) (M x)).
  { eapply Rle_trans; [exact (proj2 (Hm (M x)))|]. apply Rmult_le_compat_r; [exact P|apply Rmax_l]. }
  pose proof (m_pos (x -v (/ m) *v M x)) as Y. rewrite (lin_sub LM), (lin_scale _ LM) in Y. autorewrite with dot in Y.
  rewrite <- (rl_msym _ _ _ _ _ _ H x (M x)) in Y. set (a := dot (M x) (M x)) in *. set (b := dot (M x) (M (M x))) in *. set (d := dot x (M x)) in *.
  assert (Pi : 0 < / m) by (apply Rinv_0_lt_compat; lra).
  assert (Z : / m * (/ m * b) <= / m * a).
  { apply Rmult_le_compat_l; [lra|]. apply Rmult_le_reg_l with m; [exact Pm|]. rewrite <- Rmult_assoc, Rinv_r, Rmult_1_l by lra. exact Q. }
  assert (W : / m * a <= d) by lra. apply Rmult_le_reg_l with (/ m); [exact Pi|]. rewrite <- Rmult_assoc, Rinv_l, Rmult_1_l by lra. exact W.
Qed.
Lemma norm_lt (x : S) t : 0 < t -> dot x x < t * t -> norm x < t.
Proof. intros Ht Hx. pose proof (norm_sq x) as E. pose proof (norm_pos x). destruct (Rlt_dec (norm x) t); [assumption|]. nra. Qed.
Lemma ratio_true a b tol : 0 < b -> a < tol * b -> ratioLt a b tol = true.
Proof.
  intros Hb Hl. unfold ratioLt. assert (E : Reqb b 0 = false) by (apply Reqb_false; lra). rewrite E. apply Rltb_true.
  apply Rmult_lt_reg_r with b; [exact Hb|]. unfold Rdiv. rewrite Rmult_assoc, Rinv_l; lra.
Qed.
Lemma launch_nz u : u <> xs -> 0 < dot (snd (point u 0)) (M (snd (point u 0))).
Proof.
  intros N. pose proof (m_pos (snd (point u 0))) as P. destruct (Rle_lt_or_eq_dec _ _ P) as [|E]; [assumption|]. exfalso. apply N.
  symmetry in E. apply m_zero in E. cbn [point orbit snd] in E. destruct (rl_pos _ _ _ _ _ _ H) as (k1 & Hk1 & Hk).
  pose proof (rl_sc _ _ _ _ _ _ H) as Hs. apply vsub_zero_eq. apply dot_zero.
  assert (Z : K (u -v xs) = v0).
  { apply (f_equal M) in E. unfold Aop in E. pose proof (rl_mass _ _ _ _ _ _ H) as LM. rewrite !(lin_scale _ LM), (rl_inv _ _ _ _ _ _ H), (lin_0 LM) in E.
    replace (K (u -v xs)) with ((- 2 / sc) *v (- (1 / 2) *v (sc *v K (u -v xs)))) by (vfield; lra). rewrite E. vring. }
  specialize (Hk (u -v xs)). rewrite Z, dot_0_l in Hk. pose proof (dot_pos _ (u -v xs)). nra.
Qed.
(** *** A mode beyond the limit *)
Section Mode.
Variable phi : S.
Variable lam : R.
Variable u : S.
Hypothesis HK : K phi = lam *v M phi.
Hypothesis Hb : 2 * (2 - sc * c) < sc * lam.
Hypothesis Hu : dot (u -v xs) (M phi) <> 0.
Let q := 1 - sc * c.
Let a := sc * lam.
Let P := 1 + q - a.
Let l1 := (P - sqrt (P * P - 4 * q)) / 2.
Let l2 := (P + sqrt (P * P - 4 * q)) / 2.
Let En n := dot (fst (point u n)) (M phi).
Let Wn n := dot (snd (point u n)) (M phi).
Let d := dot (u -v xs) (M phi).
Lemma roots : l1 < -1 /\ Rabs l2 < 1 /\ l1 + l2 = P /\ l1 * l2 = q.
Proof.
  assert (Hq : -1 < q < 1) by (pose proof (rl_damp _ _ _ _ _ _ H); unfold q; lra).
  assert (HP : P < - (1 + q)) by (unfold P, a, q; lra).
  assert (D : (1 - q) * (1 - q) < P * P - 4 * q) by nra.
  assert (Q : sqrt (P * P - 4 * q) * sqrt (P * P - 4 * q) = P * P - 4 * q) by (apply sqrt_sqrt; nra).
  pose proof (sqrt_pos (P * P - 4 * q)) as Ps. set (t := sqrt (P * P - 4 * q)) in *.
  assert (T : 1 - q < t) by nra.
  assert (L1 : l1 < -1) by (unfold l1; fold t; lra). assert (Lp : l1 * l2 = q) by (unfold l1, l2; fold t; nra).
  split; [exact L1|]. split; [|split; [unfold l1, l2; fold t; lra|exact Lp]].
  destruct (Rlt_dec (Rabs l2) 1) as [|N]; [assumption|]. exfalso. apply Rnot_lt_le in N.
  assert (X : Rabs q = Rabs l1 * Rabs l2) by (rewrite <- Rabs_mult, Lp; reflexivity).
  rewrite (Rabs_left l1) in X by lra. assert (Rabs q < 1) by (apply Rabs_def1; lra). nra.
Qed.
Lemma A_mode x : dot (Aop x) (M phi) = a * dot x (M phi).
Proof.
  unfold Aop. rewrite <- (rl_msym _ _ _ _ _ _ H), (lin_scale _ (rl_mass _ _ _ _ _ _ H)), (rl_inv _ _ _ _ _ _ H), dot_scale, (rl_sym _ _ _ _ _ _ H), HK, dot_scale_r.
  unfold a. ring.
Qed.
Lemma mode_0 : Wn 0 = - (a / 2) * d /\ En 0 = (1 - a / 2) * d.
Proof. unfold Wn, En, d. cbn [point orbit fst snd]. autorewrite with dot. rewrite A_mode. autorewrite with dot. split; field. Qed.
Lemma mode_S n : Wn (Datatypes.S n) = q * Wn n - a * En n /\ En (Datatypes.S n) = En n + Wn (Datatypes.S n).
Proof.
  unfold Wn, En. unfold point at 1 2. cbv zeta. set (b := (u -v xs +v _, _)). unfold point at 2 3. cbv zeta. fold b. rewrite orbit_S. fold (point u n).
  change (orbit Aop (sc * c) n b) with (point u n). cbn [fst snd]. split.
  - unfold nextV. autorewrite with dot. rewrite A_mode. fold q. reflexivity.
  - unfold nextE at 1. autorewrite with dot. f_equal. unfold point. cbv zeta. fold b. rewrite orbit_S. reflexivity.
Qed.
Definition ell (l : R) n : R := (l - q) * En n + q * Wn n.
Lemma ell_S l n : l * l - P * l + q = 0 -> ell l (Datatypes.S n) = l * ell l n.
Proof. intros E. destruct (mode_S n) as (E1 & E2). unfold ell. rewrite E2, E1. unfold P in E. assert (X : l * (l - q) = l - q - l * a) by lra.
  transitivity ((l - q - l * a) * En n + l * q * Wn n); [ring|]. rewrite <- X. ring. Qed.
Lemma ell_n l n : l * l - P * l + q = 0 -> ell l n = l ^ n * ell l 0.
Proof. intros E. induction n as [|n IH]; [cbn; ring|]. rewrite (ell_S l n E), IH. cbn [pow]. ring. Qed.
Lemma root1 : l1 * l1 - P * l1 + q = 0. Proof. destruct roots as (_ & _ & R3 & R4). rewrite <- R3, <- R4. ring. Qed.
Lemma root2 : l2 * l2 - P * l2 + q = 0. Proof. destruct roots as (_ & _ & R3 & R4). rewrite <- R3, <- R4. ring. Qed.
Lemma ell_0 : ell l1 0 <> 0.
Proof.
  destruct mode_0 as (E1 & E2). destruct roots as (R1 & R2 & R3 & R4). unfold ell. rewrite E1, E2.
  assert (Ea : a = 1 + l1 * l2 - (l1 + l2)) by (rewrite R3, R4; unfold P; ring). rewrite Ea, <- R4.
  replace ((l1 - l1 * l2) * ((1 - (1 + l1 * l2 - (l1 + l2)) / 2) * d) + l1 * l2 * (- ((1 + l1 * l2 - (l1 + l2)) / 2) * d)) with
    (l1 * (1 - l2) * (1 + l1) * d / 2) by field.
  pose proof (Rle_abs l2). intros Z. assert (Y : l1 * (1 - l2) * (1 + l1) * d = 0) by lra.
  apply Rmult_integral in Y as [Y|Y]; [|exact (Hu Y)]. apply Rmult_integral in Y as [Y|Y]; [|lra]. apply Rmult_integral in Y as [Y|Y]; lra.
Qed.
Lemma pow_ge1 l n : 1 <= Rabs l -> 1 <= Rabs (l ^ n).
Proof. intros Hl. rewrite <- RPow_abs. apply pow_R1_Rle, Hl. Qed.
(** the error grows without bound *)
Lemma mode_grows Bd : exists N, forall n, (N <= n)%nat -> Bd < norm (fst (point u n)).
Proof.
  destruct roots as (R1 & R2 & R3 & R4). pose proof ell_0 as Z. set (t := Rabs (ell l1 0)). assert (Pt : 0 < t) by (apply Rabs_pos_lt, Z).
  set (w := norm (M phi) * (l2 - l1)). pose proof (norm_pos (M phi)) as Pn. pose proof (Rabs_def2 _ _ R2) as R2'.
  set (need := (Rabs (ell l2 0) + Rmax Bd 0 * w + 1) / t).
  destruct (Pow_x_infinity l1 ltac:(rewrite Rabs_left by lra; lra) need) as (N & HN). exists N. intros n Hn. specialize (HN n Hn).
  pose proof (ell_n l1 n root1) as E1. pose proof (ell_n l2 n root2) as E2.
  assert (X : (l2 - l1) * En n = ell l2 n - ell l1 n) by (unfold ell; ring).
  assert (Y : Rabs (ell l1 n) <= (l2 - l1) * Rabs (En n) + Rabs (ell l2 n)).
  { replace (ell l1 n) with (ell l2 n - (l2 - l1) * En n) by lra. eapply Rle_trans; [apply Rabs_triang|]. rewrite Rabs_Ropp, Rabs_mult, (Rabs_right (l2 - l1)) by lra. lra. }
  assert (Y2 : Rabs (ell l2 n) <= Rabs (ell l2 0)).
  { rewrite E2, Rabs_mult, <- RPow_abs. pose proof (Rabs_pos (ell l2 0)). pose proof (Rabs_pos l2).
    assert (Rabs l2 ^ n <= 1) by (rewrite <- (pow1 n); apply pow_incr; lra). pose proof (pow_le (Rabs l2) n ltac:(lra)). nra. }
  assert (Y1 : Rabs (ell l2 0) + Rmax Bd 0 * w + 1 <= Rabs (ell l1 n)).
  { rewrite E1, Rabs_mult. fold t. apply Rle_trans with (need * t); [right; unfold need; field; lra|]. apply Rmult_le_compat_r; lra. }
  pose proof (cauchy_schwarz (fst (point u n)) (M phi)) as C. fold (En n) in C. set (z := norm (fst (point u n))) in *.
  apply Rle_lt_trans with (Rmax Bd 0); [apply Rmax_l|]. destruct (Rlt_dec (Rmax Bd 0) z) as [|N0]; [assumption|]. exfalso. apply Rnot_lt_le in N0.
  assert (Q : (l2 - l1) * Rabs (En n) <= (l2 - l1) * (Rmax Bd 0 * norm (M phi))).
  { apply Rmult_le_compat_l; [lra|]. eapply Rle_trans; [exact C|]. apply Rmult_le_compat_r; assumption. }
  unfold w in Y1. lra.
Qed.
Lemma m_cs x y : dot x (M y) * dot x (M y) <= dot x (M x) * dot y (M y).
Proof.
  pose proof (cauchy_schwarz (S := TM) x y) as C. change (Rabs (dot x (M y)) <= norm (S := TM) x * norm (S := TM) y) in C.
  pose proof (norm_sq (S := TM) x) as N1. pose proof (norm_sq (S := TM) y) as N2. change (@dot TM x x) with (dot x (M x)) in N1. change (@dot TM y y) with (dot y (M y)) in N2.
  rewrite <- N1, <- N2. set (s1 := norm (S := TM) x) in *. set (s2 := norm (S := TM) y) in *. pose proof (Rabs_pos (dot x (M y))).
  rewrite <- (Rabs_right (dot x (M y) * dot x (M y))) by nra. rewrite Rabs_mult. replace (s1 * s1 * (s2 * s2)) with ((s1 * s2) * (s1 * s2)) by ring.
  apply Rmult_le_compat; assumption.
Qed.
(** with small tolerances the test never holds *)
Lemma mode_test : exists tol, 0 < tol /\ forall o, go_tolF o <= tol -> go_tolE o <= tol -> forall n, testOf o u (Datatypes.S n) = false.
Proof.
  destruct roots as (R1 & R2 & R3 & R4). pose proof ell_0 as Z. set (t := Rabs (ell l1 0)). assert (Pt : 0 < t) by (apply Rabs_pos_lt, Z).
  assert (Hq : -1 < q < 1) by (pose proof (rl_damp _ _ _ _ _ _ H); unfold q; lra). assert (Pa : 0 < a) by (unfold a, q in *; lra).
  pose proof (rl_sc _ _ _ _ _ _ H) as Hs.
  set (k := Rabs (l1 - q) * (3 / a) + 2). assert (Pk : 0 < k).
  { assert (0 < 3 / a) by (apply Rdiv_lt_0_compat; lra). pose proof (Rabs_pos (l1 - q)). unfold k. nra. }
  set (del := t / (2 * k)). assert (Pd : 0 < del) by (apply Rdiv_lt_0_compat; lra).
  set (ini := orOne (norm (gp_force p))). pose proof ini_pos as Pini. fold ini in Pini.
  set (E0 := dot (snd (point u 0)) (M (snd (point u 0)))). set (F := dot phi (M phi)).
  assert (PE : 0 <= E0) by apply m_pos. assert (PF : 0 <= F) by apply m_pos. pose proof (norm_pos phi) as Pp.
  set (tF := del / (sc * (ini * norm phi + 1))). set (tE := del * del / (E0 * F + 1)).
  assert (X1 : 0 < sc * (ini * norm phi + 1)) by (apply Rmult_lt_0_compat; [assumption|nra]). assert (X2 : 0 < E0 * F + 1) by nra.
  assert (PtF : 0 < tF) by (apply Rdiv_lt_0_compat; assumption). assert (PtE : 0 < tE) by (apply Rdiv_lt_0_compat; nra).
  exists (Rmin tF tE). split; [apply Rmin_glb_lt; assumption|]. intros o O1 O2 n. apply not_true_is_false. intros T.
  assert (O1' : go_tolF o <= tF) by (eapply Rle_trans; [exact O1|apply Rmin_l]). assert (O2' : go_tolE o <= tE) by (eapply Rle_trans; [exact O2|apply Rmin_r]).
  unfold testOf in T. apply andb_true_iff in T as [T _]. apply andb_true_iff in T as [T1 T2]. fold ini in T1. fold E0 in T2.
  set (v := snd (point u (Datatypes.S n))) in *.
  assert (B1 : norm (resOf u (Datatypes.S n)) < tF * ini).
  { unfold ratioLt in T1. assert (E : Reqb ini 0 = false) by (apply Reqb_false; lra). rewrite E in T1. apply Rltb_true in T1.
    apply Rlt_le_trans with (go_tolF o * ini); [|apply Rmult_le_compat_r; lra]. apply Rmult_lt_reg_r with (/ ini); [apply Rinv_0_lt_compat; lra|].
    rewrite (Rmult_assoc (go_tolF o)), Rinv_r, Rmult_1_r by lra. exact T1. }
  assert (B2 : dot v (M v) < tE * E0).
  { unfold ratioLt in T2. destruct (Reqb E0 0) eqn:E; [apply Rltb_true in T2; pose proof (m_pos v); lra|]. apply Reqb_false in E. apply Rltb_true in T2.
    apply Rlt_le_trans with (go_tolE o * E0); [|apply Rmult_le_compat_r; lra]. apply Rmult_lt_reg_r with (/ E0); [apply Rinv_0_lt_compat; lra|].
    rewrite (Rmult_assoc (go_tolE o)), Rinv_r, Rmult_1_r by lra. exact T2. }
  assert (C1 : Rabs (Wn (Datatypes.S n)) <= del).
  { pose proof (m_cs v phi) as Q. fold F in Q. change (dot v (M phi)) with (Wn (Datatypes.S n)) in Q.
    assert (Q2 : dot v (M v) * F <= del * del).
    { apply Rle_trans with (tE * E0 * F); [apply Rmult_le_compat_r; lra|]. apply Rle_trans with (tE * (E0 * F + 1)); [nra|]. right. unfold tE. field. lra. }
    apply Rsqr_incr_0_var; [|lra]. unfold Rsqr. rewrite <- Rabs_mult, Rabs_right; [lra|]. apply Rle_ge. exact (Rle_0_sqr (Wn (Datatypes.S n))). }
  assert (C2 : sc * Rabs (dot (resOf u (Datatypes.S n)) phi) <= del).
  { pose proof (cauchy_schwarz (resOf u (Datatypes.S n)) phi) as Q. pose proof (norm_pos (resOf u (Datatypes.S n))).
    apply Rle_trans with (sc * (tF * ini * norm phi)); [apply Rmult_le_compat_l; [lra|]; eapply Rle_trans; [exact Q|]; apply Rmult_le_compat_r; lra|].
    assert (Y1 : 0 < tF * sc) by (apply Rmult_lt_0_compat; assumption). assert (Y2 : 0 <= ini * norm phi) by (apply Rmult_le_pos; lra).
    apply Rle_trans with (tF * (sc * (ini * norm phi + 1))); [lra|]. right. unfold tF. field. split; lra. }
  assert (D1 : Wn n = Wn (Datatypes.S n) - sc * dot (resOf u (Datatypes.S n)) phi).
  { unfold resOf. cbn [Nat.sub]. rewrite Nat.sub_0_r, dot_scale, (rl_msym _ _ _ _ _ _ H). autorewrite with dot. unfold Wn. field. lra. }
  destruct (mode_S n) as (E1 & _).
  assert (C3 : Rabs (Wn n) <= 2 * del).
  { rewrite D1. eapply Rle_trans; [apply Rabs_triang|]. rewrite Rabs_Ropp, Rabs_mult, (Rabs_right sc) by lra. lra. }
  assert (Aq : Rabs q <= 1) by (left; apply Rabs_def1; lra).
  assert (C5 : Rabs q * Rabs (Wn n) <= 1 * (2 * del)) by (apply Rmult_le_compat; [apply Rabs_pos|apply Rabs_pos|exact Aq|exact C3]).
  assert (C4 : Rabs (En n) <= 3 / a * del).
  { replace (En n) with ((q * Wn n - Wn (Datatypes.S n)) / a) by (rewrite E1; field; lra). unfold Rdiv. rewrite Rabs_mult, (Rabs_right (/ a)) by (left; apply Rinv_0_lt_compat; lra).
    replace (3 * / a * del) with ((2 * del + del) * / a) by ring. apply Rmult_le_compat_r; [left; apply Rinv_0_lt_compat; lra|].
    eapply Rle_trans; [apply Rabs_triang|]. rewrite Rabs_Ropp, Rabs_mult. lra. }
  assert (L1 : Rabs (ell l1 n) <= k * del).
  { unfold ell. eapply Rle_trans; [apply Rabs_triang|]. rewrite !Rabs_mult.
    assert (Rabs (l1 - q) * Rabs (En n) <= Rabs (l1 - q) * (3 / a * del)) by (apply Rmult_le_compat_l; [apply Rabs_pos|exact C4]). unfold k. lra. }
  assert (L2 : t <= Rabs (ell l1 n)).
  { rewrite (ell_n l1 n root1), Rabs_mult. fold t. pose proof (pow_ge1 l1 n ltac:(rewrite Rabs_left by lra; lra)).
    rewrite <- (Rmult_1_l t) at 1. apply Rmult_le_compat_r; lra. }
  assert (E : k * del = t / 2) by (unfold del; field; lra). lra.
Qed.
End Mode.
Hypothesis Hlim : below p sc c K.
Lemma relax_hyps : exists lo del, linear (A := TM) (B := TM) Aop /\ (forall x y : TM, @dot TM (Aop x) y = @dot TM x (Aop y)) /\
  0 < sc * c < 2 /\ 0 < lo /\ 0 < del /\ (forall x : TM, lo * @dot TM x x <= @dot TM (Aop x) x) /\
  (forall x : TM, @dot TM (Aop x) x <= (2 * (2 - sc * c) - del) * @dot TM x x).
Proof.
  destruct (rl_pos _ _ _ _ _ _ H) as (k1 & Hk1 & Hk). destruct (rl_mpos _ _ _ _ _ _ H) as (m1 & m2 & Hm1 & Hm).
  destruct Hlim as (del & Hdel & Hl). pose proof (rl_sc _ _ _ _ _ _ H) as Hsc.
  set (m := Rmax m2 1). assert (Pm : 0 < m) by (pose proof (Rmax_r m2 1); unfold m; lra).
  pose proof (rl_lin _ _ _ _ _ _ H) as LK. pose proof minv_linear as LI.
  assert (D : forall x y : S, dot (Aop x) (M y) = sc * dot (K x) y).
  { intros x y. unfold Aop. rewrite <- (rl_msym _ _ _ _ _ _ H), (lin_scale _ (rl_mass _ _ _ _ _ _ H)), (rl_inv _ _ _ _ _ _ H). apply dot_scale. }
  exists (sc * k1 / m), del. split; [|split; [|split; [|split; [|split; [|split]]]]].
  - split; intros; unfold Aop; cbn [TM VS_mass vadd vscale].
    + rewrite (lin_add _ LK), (lin_add _ LI). apply (dot_ext (S := S)); intros z; autorewrite with dot; ring.
    + rewrite (lin_scale _ LK), (lin_scale _ LI). apply (dot_ext (S := S)); intros z; autorewrite with dot; ring.
  - intros x y. cbn [TM VS_mass dot]. rewrite D, <- (rl_msym _ _ _ _ _ _ H), (dot_sym _ (M x)), D, (rl_sym _ _ _ _ _ _ H x y), (dot_sym S x). reflexivity.
  - exact (rl_damp _ _ _ _ _ _ H).
  - apply Rdiv_lt_0_compat; [apply Rmult_lt_0_compat; lra|exact Pm].
  - exact Hdel.
  - change (forall x : S, sc * k1 / m * dot x (M x) <= dot (Aop x) (M x)). intros x. rewrite D. specialize (Hk x). specialize (Hm x). pose proof (dot_pos S x) as Px.
    assert (X : dot x (M x) <= m * dot x x) by (eapply Rle_trans; [exact (proj2 Hm)|]; apply Rmult_le_compat_r; [exact Px|apply Rmax_l]).
    replace (sc * k1 / m * dot x (M x)) with (sc * (k1 * (dot x (M x) / m))) by (field; lra).
    apply Rmult_le_compat_l; [lra|]. eapply Rle_trans; [|exact Hk]. apply Rmult_le_compat_l; [lra|].
    apply Rmult_le_reg_r with m; [exact Pm|]. unfold Rdiv. rewrite Rmult_assoc, Rinv_l; lra.
  - change (forall x : S, dot (Aop x) (M x) <= (2 * (2 - sc * c) - del) * dot x (M x)). intros x. rewrite D. apply Hl.
Qed.
Lemma relax_rate : exists C r, 0 < C /\ 0 < r < 1 /\ forall (a : S * S) n,
  let b := orbit (T := S) Aop (sc * c) n a in
  dot (fst b) (M (fst b)) + dot (snd b) (M (snd b)) <= C * r ^ n * (dot (fst a) (M (fst a)) + dot (snd a) (M (snd a))).
Proof.
  destruct relax_hyps as (lo & del & A1 & A2 & A3 & A4 & A5 & A6 & A7).
  destruct (damped_rate (T := TM) Aop (sc * c) lo del A1 A2 A3 A4 A5 A6 A7) as (C & r & PC & Pr & Hr).
  exists C, r. split; [exact PC|]. split; [exact Pr|]. intros a n. exact (Hr a n).
Qed.
Lemma relax_A x : dot (Aop x) (M (Aop x)) <= 16 * dot x (M x).
Proof.
  destruct relax_hyps as (lo & del & A1 & A2 & A3 & A4 & A5 & A6 & A7).
  pose proof (A_bound (T := TM) Aop (sc * c) lo del A1 A2 A3 A4 A5 A6 A7 x) as B.
  change (dot (Aop x) (M (Aop x)) <= 4 * ((2 - sc * c) * (2 - sc * c)) * dot x (M x)) in B. pose proof (m_pos x). set (y := sc * c) in *.
  eapply Rle_trans; [exact B|]. apply Rmult_le_compat_r; [assumption|nra].
Qed.
Definition size (a : S * S) : R := dot (fst a) (M (fst a)) + dot (snd a) (M (snd a)).
Lemma size_small u eps : 0 < eps -> exists N, forall n, (N <= n)%nat -> size (point u n) < eps.
Proof.
  intros He. destruct relax_rate as (C & r & PC & Pr & Hr). set (q := C * (size (point u 0) + 1)).
  assert (P0 : 0 <= size (point u 0)) by (pose proof (m_pos (fst (point u 0))); pose proof (m_pos (snd (point u 0))); unfold size; lra).
  assert (Pq : 0 < q) by (apply Rmult_lt_0_compat; lra).
  destruct (pow_lt_1_zero r ltac:(rewrite Rabs_right; lra) (eps / q) ltac:(apply Rdiv_lt_0_compat; lra)) as (N & HN).
  exists N. intros n Hn. specialize (HN n Hn). assert (Pp : 0 < r ^ n) by (apply pow_lt; lra). rewrite Rabs_right in HN by lra.
  pose proof (Hr (point u 0) n) as X. cbv zeta in X. change (orbit Aop (sc * c) n (point u 0)) with (point u n) in X.
  fold (size (point u n)) (size (point u 0)) in X. eapply Rle_lt_trans; [exact X|].
  apply Rle_lt_trans with (r ^ n * q); [unfold q; nra|]. apply Rlt_le_trans with (eps / q * q); [apply Rmult_lt_compat_r; assumption|].
  right. field. lra.
Qed.
Lemma test_eventually o u : u <> xs -> 0 < go_tolF o -> 0 < go_tolU o -> 0 < go_tolE o ->
  exists N, forall n, (N <= n)%nat -> testOf o u n = true.
Proof.
  intros Nu TF TU TE. pose proof (rl_sc _ _ _ _ _ _ H) as Hs. destruct (rl_mpos _ _ _ _ _ _ H) as (m1 & m2 & Hm1 & Hm). destruct m_image as (m & Pm & Hi).
  set (ini := orOne (norm (gp_force p))). pose proof ini_pos as Pini. fold ini in Pini. pose proof (launch_nz u Nu) as PE. set (E0 := dot (snd (point u 0)) (M (snd (point u 0)))) in *.
  set (d0 := norm (xs -v u)). assert (Pd : 0 < d0).
  { pose proof (norm_pos (xs -v u)) as P. destruct (Rle_lt_or_eq_dec _ _ P) as [|E]; [assumption|]. exfalso. apply Nu. symmetry.
    apply vsub_zero_eq, norm_zero. symmetry. exact E. }
  set (tF := go_tolF o * ini). assert (PF : 0 < tF) by (apply Rmult_lt_0_compat; assumption).
  set (tU := go_tolU o * (d0 / 2)). assert (PU : 0 < tU) by (apply Rmult_lt_0_compat; lra).
  destruct (size_small u (tF * tF * (sc * sc) / (4 * m))) as (N1 & H1); [apply Rdiv_lt_0_compat; [apply Rmult_lt_0_compat; nra|lra]|].
  destruct (size_small u (go_tolE o * E0)) as (N2 & H2); [apply Rmult_lt_0_compat; assumption|].
  destruct (size_small u (m1 * (d0 / 2 * (d0 / 2)))) as (N3 & H3); [apply Rmult_lt_0_compat; nra|].
  destruct (size_small u (m1 * (tU * tU))) as (N4 & H4); [apply Rmult_lt_0_compat; nra|].
  exists (Datatypes.S (N1 + N2 + N3 + N4)). intros n Hn. pose proof (H1 n ltac:(lia)) as X1. pose proof (H1 (n - 1)%nat ltac:(lia)) as X0.
  specialize (H2 n ltac:(lia)). specialize (H3 n ltac:(lia)). specialize (H4 n ltac:(lia)). unfold size in *.
  set (e := fst (point u n)) in *. set (v := snd (point u n)) in *. set (v1 := snd (point u (n - 1))) in *. 
  pose proof (m_pos e) as Pe. pose proof (m_pos v) as Pv. pose proof (m_pos (fst (point u (n - 1)))) as Pe1. pose proof (m_pos v1) as Pv1.
  assert (Ne : norm e < d0 / 2). { apply norm_lt; [lra|]. apply Rmult_lt_reg_l with m1; [exact Hm1|]. pose proof (Hm e). lra. }
  assert (Nv : norm v < tU). { apply norm_lt; [lra|]. apply Rmult_lt_reg_l with m1; [exact Hm1|]. pose proof (Hm v). lra. }
  unfold testOf. fold ini E0 v e. apply andb_true_iff; split; [apply andb_true_iff; split|]; apply ratio_true.
  - exact Pini.
  - fold tF. apply norm_lt; [exact PF|]. unfold resOf. fold v v1. autorewrite with dot. pose proof (Hi (v -v v1)) as Y. pose proof (m_par v v1) as Z.
    set (q := dot (M (v -v v1)) (M (v -v v1))) in *.
    assert (B : q < tF * tF * (sc * sc)).
    { apply Rle_lt_trans with (m * dot (v -v v1) (M (v -v v1))); [exact Y|].
      apply Rlt_le_trans with (m * (4 * (tF * tF * (sc * sc) / (4 * m)))); [apply Rmult_lt_compat_l; lra|right; field; lra]. }
    apply Rmult_lt_reg_l with (sc * sc); [nra|]. replace (sc * sc * (1 / sc * (1 / sc * q))) with q by (field; lra). lra.
  - exact PE.
  - lra.
  - assert (Q : d0 <= norm (xs +v e -v u) + norm e).
    { unfold d0. replace (xs -v u) with ((xs +v e -v u) +v vopp e) by vring. eapply Rle_trans; [apply norm_triangle|]. rewrite norm_opp. lra. }
    lra.
  - assert (Q : d0 <= norm (xs +v e -v u) + norm e).
    { unfold d0. replace (xs -v u) with ((xs +v e -v u) +v vopp e) by vring. eapply Rle_trans; [apply norm_triangle|]. rewrite norm_opp. lra. }
    unfold tU in Nv. nra.
Qed.
Lemma error_rate : exists C r, 0 < C /\ 0 < r < 1 /\ forall u n, norm (fst (point u n)) <= C * r ^ n * norm (u -v xs).
Proof.
  destruct relax_rate as (C & r & PC & Pr & Hr). destruct (rl_mpos _ _ _ _ _ _ H) as (m1 & m2 & Hm1 & Hm).
  set (m := Rmax m2 1). assert (Pm : 0 < m) by (pose proof (Rmax_r m2 1); unfold m; lra).
  set (q := C * (14 * m) / m1). assert (Pq : 0 < q) by (apply Rdiv_lt_0_compat; [apply Rmult_lt_0_compat; lra|exact Hm1]).
  exists (sqrt q), (sqrt r). split; [apply sqrt_lt_R0; exact Pq|]. split; [split; [apply sqrt_lt_R0; lra|rewrite <- sqrt_1; apply sqrt_lt_1; lra]|].
  intros u n. set (d := u -v xs). specialize (Hr (point u 0) n). cbv zeta in Hr. change (orbit Aop (sc * c) n (point u 0)) with (point u n) in Hr.
  assert (B0 : size (point u 0) <= 14 * m * dot d d).
  { unfold size. set (w := snd (point u 0)). assert (Ew : w = (- (1 / 2)) *v Aop d) by reflexivity. assert (Ed : fst (point u 0) = d +v w) by reflexivity.
    rewrite Ed. pose proof (rl_mass _ _ _ _ _ _ H) as LM. assert (W1 : dot w (M w) <= 4 * dot d (M d)).
    { rewrite Ew, (lin_scale _ LM). autorewrite with dot. pose proof (relax_A d). lra. }
    pose proof (m_par d (vopp w)) as Q. replace (d -v vopp w) with (d +v w) in Q by vring. rewrite (lin_opp LM) in Q. autorewrite with dot in Q.
    pose proof (m_pos d) as Pd.
    assert (Q2 : 14 * dot d (M d) <= 14 * m * dot d d).
    { rewrite Rmult_assoc. apply Rmult_le_compat_l; [lra|]. eapply Rle_trans; [exact (proj2 (Hm d))|]. apply Rmult_le_compat_r; [apply dot_pos|apply Rmax_l]. }
    autorewrite with dot. lra. }
  assert (Pp : 0 < r ^ n) by (apply pow_lt; lra). fold (size (point u 0)) in Hr. set (e := fst (point u n)) in *.
  pose proof (m_pos (snd (point u n))) as Pv. pose proof (proj1 (Hm e)) as Me.
  assert (B : dot e e <= q * r ^ n * dot d d).
  { apply Rmult_le_reg_l with m1; [exact Hm1|]. replace (m1 * (q * r ^ n * dot d d)) with (C * r ^ n * (14 * m * dot d d)) by (unfold q; field; lra).
    apply Rle_trans with (C * r ^ n * size (point u 0)); [lra|]. apply Rmult_le_compat_l; [apply Rmult_le_pos; lra|exact B0]. }
  apply Rsqr_incr_0_var; [|apply Rmult_le_pos; [apply Rmult_le_pos; [apply sqrt_pos|apply pow_le, sqrt_pos]|apply norm_pos]].
  unfold Rsqr. rewrite norm_sq. eapply Rle_trans; [exact B|]. right. rewrite <- (norm_sq d).
  replace (q * r ^ n) with ((sqrt q * sqrt r ^ n) * (sqrt q * sqrt r ^ n)); [ring|].
  transitivity ((sqrt q * sqrt q) * (sqrt r * sqrt r) ^ n); [rewrite Rpow_mult_distr; ring|]. rewrite !sqrt_sqrt by lra. reflexivity.
Qed.
End Relax.

(** ** solve(), from initialize on *)
Lemma solve_at {S : VS} (p : gprob S) L c alpha K xs u tolF tolU tolE maxIt every s0 :
  relaxable p L (1 / alpha) c K xs -> (every < 0)%Z -> (2 <= maxIt)%nat ->
  let o := mkGOpts tolF tolU tolE maxIt c alpha every in
  let run := drSolve p (drSetDisplacement u (drSetLoad L (drInitialize o s0))) in
  let test := testOf p (1 / alpha) c K xs o u in
  exists j s', (1 <= j < maxIt)%nat /\ g_it s' = j /\ g_U s' = xs +v fst (point p (1 / alpha) c K xs u j) /\
    (run = Done Success s' /\ g_stat s' = Success /\ test j = true \/ run = Threw (XInt 1) s' /\ test j = false /\ j = (maxIt - 1)%nat) /\
    forall m, (1 <= m < j)%nat -> test m = false.
Proof.
  intros H Hr Hm o run test. unfold run, drSolve, drStart, drResidual.
  cbn [drSetDisplacement drSetLoad drInitialize drReset drPush g_L g_U g_DU g_damp g_V g_scale g_ini g_Ek g_Ek0 g_Eks g_opts g_stat g_R g_dU g_head g_it g_rnorm g_EkPrev].
  rewrite (rl_res _ _ _ _ _ _ H). cbn [rbind]. cbv zeta. set (s1 := drPush _ _ _).
  assert (A0 : at_ p L (1 / alpha) c K xs u 0 s1).
  { pose proof (rl_lin _ _ _ _ _ _ H) as LK. pose proof (minv_linear _ _ _ _ _ _ H) as LI.
    assert (EV : g_V s1 = snd (point p (1 / alpha) c K xs u 0)).
    { unfold s1, drLaunch, massInv, point, Aop, dt. cbn. rewrite (lin_sub LK), !(lin_sub LI). vfield. pose proof (rl_sc _ _ _ _ _ _ H) as P. intros ->. unfold Rdiv in P. rewrite Rinv_0 in P. lra. }
    repeat split; try reflexivity.
    - unfold s1, drLaunch. cbn. ring.
    - change (g_Ek0 s1) with (dot (g_V s1) (gp_mass p (g_V s1))). rewrite EV. reflexivity.
    - exact EV.
    - replace (g_DU s1) with (g_V s1) by (unfold s1, drLaunch, dt; cbn; vring; field). rewrite EV. cbn [point orbit fst snd]. vring. }
  destruct (loop_at p L (1 / alpha) c K xs H o u eq_refl Hr (maxIt - 2) 0 0%Z s1 A0 (Z.le_refl 0)) as (j & s' & J1 & J2 & J3 & J4 & J5).
  replace (Datatypes.S (maxIt - 2)) with (go_maxIt o - 1)%nat in * by (cbn; lia). cbn [go_maxIt o] in *.
  exists j. fold test in J4, J5. destruct J4 as [(J4 & J6)|(J4 & J6 & J7)].
  - exists (drSetStat Success s'). split; [lia|]. split; [exact J2|]. split; [exact J3|]. split; [left|intros; apply J5; lia].
    split; [|split; [reflexivity|exact J6]]. rewrite J4. reflexivity.
  - exists s'. split; [lia|]. split; [exact J2|]. split; [exact J3|]. split; [right|intros; apply J5; lia].
    split; [|split; [exact J6|lia]]. rewrite J4. reflexivity.
Qed.

(** Linear problem, stiffness below the stability limit, start different from the equilibrium,
    positive tolerances, no periodic stop of the motion: with enough iterations solve() ends with
    Success. *)
Theorem C130_success {S : VS} (p : gprob S) L c alpha K xs u tolF tolU tolE every :
  relaxable p L (1 / alpha) c K xs -> below p (1 / alpha) c K -> u <> xs -> 0 < tolF -> 0 < tolU -> 0 < tolE -> (every < 0)%Z ->
  exists N, forall maxIt s0, (N < maxIt)%nat -> exists s',
    drSolve p (drSetDisplacement u (drSetLoad L (drInitialize (mkGOpts tolF tolU tolE maxIt c alpha every) s0))) = Done Success s' /\
    g_stat s' = Success /\ (1 <= g_it s' <= N)%nat.
Proof.
  intros H B Nu TF TU TE Hr.
  destruct (test_eventually p L (1 / alpha) c K xs H B (mkGOpts tolF tolU tolE 0 c alpha every) u Nu TF TU TE) as (N & HN).
  exists (Datatypes.S N). intros maxIt s0 Hm.
  destruct (solve_at p L c alpha K xs u tolF tolU tolE maxIt every s0 H Hr ltac:(lia)) as (j & s' & J1 & J2 & J3 & J4 & J5).
  specialize (HN (Datatypes.S N) ltac:(lia)) as T. change (testOf p (1 / alpha) c K xs (mkGOpts tolF tolU tolE maxIt c alpha every) u (Datatypes.S N) = true) in T.
  assert (Hj : (j <= Datatypes.S N)%nat). { destruct (Nat.le_gt_cases j (Datatypes.S N)); [assumption|]. rewrite J5 in T by lia. discriminate. }
  destruct J4 as [(J4 & J6 & _)|(J4 & J6 & J7)].
  - exists s'. split; [exact J4|]. split; [exact J6|lia].
  - exfalso. specialize (HN j ltac:(lia)). change (testOf p (1 / alpha) c K xs (mkGOpts tolF tolU tolE maxIt c alpha every) u j = true) in HN. congruence.
Qed.
Print Assumptions C130_success.
(** The error of solution() decreases geometrically in the number of iterations, whatever the
    tolerances, the maximum number of iterations and the outcome. *)
Theorem C130_rate {S : VS} (p : gprob S) L c alpha K xs :
  relaxable p L (1 / alpha) c K xs -> below p (1 / alpha) c K ->
  exists C r, 0 < C /\ 0 < r < 1 /\ forall u tolF tolU tolE maxIt every s0, (every < 0)%Z -> (2 <= maxIt)%nat ->
    let run := drSolve p (drSetDisplacement u (drSetLoad L (drInitialize (mkGOpts tolF tolU tolE maxIt c alpha every) s0))) in
    exists s', (run = Done Success s' \/ run = Threw (XInt 1) s' /\ g_it s' = (maxIt - 1)%nat) /\
      norm (g_U s' -v xs) <= C * r ^ g_it s' * norm (u -v xs).
Proof.
  intros H B. destruct (error_rate p L (1 / alpha) c K xs H B) as (C & r & PC & Pr & He). exists C, r. split; [exact PC|]. split; [exact Pr|].
  intros u tolF tolU tolE maxIt every s0 Hr Hm run.
  destruct (solve_at p L c alpha K xs u tolF tolU tolE maxIt every s0 H Hr Hm) as (j & s' & J1 & J2 & J3 & J4 & J5). exists s'. split.
  - destruct J4 as [(J4 & _)|(J4 & _ & J7)]; [left; exact J4|right]. split; [exact J4|lia].
  - rewrite J3, J2. replace (xs +v fst (point p (1 / alpha) c K xs u j) -v xs) with (fst (point p (1 / alpha) c K xs u j)) by vring. apply He.
Qed.
Print Assumptions C130_rate.

(** The limit is sharp: if a mode phi lies beyond it and the error of the start has a component in
    that mode, solve() never ends with Success for small tolerances, and the error of solution()
    grows beyond every bound as the number of iterations is raised. *)
Theorem C130_limit {S : VS} (p : gprob S) L c alpha K xs phi lam u :
  relaxable p L (1 / alpha) c K xs -> K phi = lam *v gp_mass p phi -> 2 * (2 - 1 / alpha * c) < 1 / alpha * lam ->
  dot (u -v xs) (gp_mass p phi) <> 0 ->
  exists tol, 0 < tol /\ forall bound, exists N, forall tolF tolU tolE maxIt every s0,
    tolF <= tol -> tolE <= tol -> (every < 0)%Z -> (2 <= maxIt)%nat -> exists s',
    drSolve p (drSetDisplacement u (drSetLoad L (drInitialize (mkGOpts tolF tolU tolE maxIt c alpha every) s0))) = Threw (XInt 1) s' /\
    ((N < maxIt)%nat -> bound < norm (g_U s' -v xs)).
Proof.
  intros H HK Hb Hu. destruct (mode_test p L (1 / alpha) c K xs H phi lam u HK Hb Hu) as (tol & Pt & Ht). exists tol. split; [exact Pt|].
  intros bound. destruct (mode_grows p L (1 / alpha) c K xs H phi lam u HK Hb Hu bound) as (N & HN). exists (N + 1)%nat.
  intros tolF tolU tolE maxIt every s0 TF TE Hr Hm.
  destruct (solve_at p L c alpha K xs u tolF tolU tolE maxIt every s0 H Hr Hm) as (j & s' & J1 & J2 & J3 & J4 & J5). exists s'.
  specialize (Ht (mkGOpts tolF tolU tolE maxIt c alpha every) TF TE (j - 1)%nat). replace (Datatypes.S (j - 1)) with j in Ht by lia.
  destruct J4 as [(_ & _ & J4)|(J4 & _ & J7)]; [congruence|]. split; [exact J4|]. intros HN'. rewrite J3.
  replace (xs +v fst (point p (1 / alpha) c K xs u j) -v xs) with (fst (point p (1 / alpha) c K xs u j)) by vring. apply HN. lia.
Qed.
Print Assumptions C130_limit.
(** A start without residual: the ratio of the kinetic energies is 0/0, so solve() ends with the
    exception 1 for every number of iterations although nothing moves. *)
Theorem C130_equilibrium {S : VS} (p : gprob S) L c alpha u tolF tolU tolE maxIt every s0 :
  linear (gp_mass p) -> linear (gp_minv p) -> gp_res p L u = Yes v0 -> (2 <= maxIt)%nat -> exists s',
  drSolve p (drSetDisplacement u (drSetLoad L (drInitialize (mkGOpts tolF tolU tolE maxIt c alpha every) s0))) = Threw (XInt 1) s' /\ g_U s' = u.
Proof.
  intros LM LI Hu Hm. set (o := mkGOpts tolF tolU tolE maxIt c alpha every).
  set (still := fun s : gst S => g_U s = u /\ g_DU s = v0 /\ g_damp s = Some c /\ g_L s = L /\ g_V s = v0 /\ g_Ek s = 0 /\ g_Ek0 s = 0).
  assert (U0 : u +v v0 = u) by vring.
  assert (It : forall s, still s -> exists s', drIteration p s = Done tt s' /\ still s').
  { intros s (H1 & H2 & H3 & H4 & H5 & H6 & H7). unfold drIteration, drResidual, damping. rewrite H1, H2, H4, U0, Hu. cbn [rbind]. rewrite H3, H5.
    unfold massInv, kinetic, dt. rewrite (lin_0 LM).
    replace (v0 -v c *v v0) with (v0 : S) by vring. rewrite (lin_0 LI). replace (v0 +v 1 *v (g_scale s *v v0)) with (v0 : S) by vring.
    rewrite (lin_0 LM), dot_0_l. eexists. split; [reflexivity|]. unfold still. cbn. repeat split; try assumption; try reflexivity; rewrite ?H2; vring. }
  assert (Pk : forall s, still s -> exists s', drPeak p s = Done tt s' /\ still s').
  { intros s (H1 & H2 & H3 & H4 & H5 & H6 & H7). unfold drPeak, drResidual, damping. rewrite H1, H2, H4, U0, Hu. cbn [rbind]. rewrite H3, H5.
    unfold massInv, dt. rewrite (lin_0 LM). replace (v0 -v c *v v0) with (v0 : S) by vring. rewrite (lin_0 LI).
    eexists. split; [reflexivity|]. unfold still. cbn. repeat split; try assumption; try reflexivity; rewrite ?H2; vring. }
  assert (Ps : forall k s, still s -> exists k' s', drPass p o k s = Done k' s' /\ still s').
  { intros k s Hs. unfold drPass. destruct (It s Hs) as (s1 & E1 & H1). rewrite E1. cbn [rbind]. destruct (_ || _); [|exists k, s1; split; [reflexivity|exact H1]].
    destruct (Pk s1 H1) as (s2 & E2 & H2). rewrite E2. cbn [rbind]. exists 0%Z, s2. split; [reflexivity|exact H2]. }
  assert (Lp : forall n i k s, still s -> exists s', drLoop p o (Datatypes.S n) i k s = Threw (XInt 1) s' /\ g_U s' = u).
  { induction n as [|n IH]; intros i k s Hs; (destruct (Ps k (drSetIt i s) Hs) as (k' & s1 & E1 & H1)).
    - cbn [drLoop]. rewrite E1. cbn [rbind]. cbv zeta. set (s2 := drPush _ _ _).
      assert (T : drTest o s2 = false). { unfold drTest. cbn [s2 drPush g_Ek g_Ek0]. destruct H1 as (_ & _ & _ & _ & _ & -> & ->). unfold ratioLt at 2.
        rewrite (proj2 (Reqb_true 0 0) eq_refl), (proj2 (Rltb_false 0 0) ltac:(lra)), andb_false_r. reflexivity. }
      rewrite T. eexists. split; [reflexivity|]. cbn. destruct H1 as (-> & -> & _). exact U0.
    - remember (Datatypes.S n) as m. cbn [drLoop]. rewrite E1. cbn [rbind]. cbv zeta. set (s2 := drPush _ _ _).
      assert (T : drTest o s2 = false). { unfold drTest. cbn [s2 drPush g_Ek g_Ek0]. destruct H1 as (_ & _ & _ & _ & _ & -> & ->). unfold ratioLt at 2.
        rewrite (proj2 (Reqb_true 0 0) eq_refl), (proj2 (Rltb_false 0 0) ltac:(lra)), andb_false_r. reflexivity. }
      rewrite T. rewrite Heqm. rewrite <- Heqm. apply IH. exact H1. }
  unfold drSolve, drStart, drResidual.
  cbn [drSetDisplacement drSetLoad drInitialize drReset drPush g_L g_U g_DU g_damp g_V g_scale g_ini g_Ek g_Ek0 g_Eks g_opts g_stat g_R g_dU g_head g_it g_rnorm g_EkPrev].
  rewrite Hu. cbn [rbind]. cbv zeta. set (s1 := drPush _ _ _).
  assert (S1 : still s1).
  { unfold still, s1, drLaunch, massInv, kinetic, dt. cbn. rewrite (lin_0 LI).
    replace (1 / 1 *v (1 / 2 * 1 * 1 *v (1 * (1 / alpha) *v v0))) with (v0 : S) by vring. rewrite (lin_0 LM), dot_0_l. repeat split; try reflexivity; vring. }
  destruct (Lp (maxIt - 2)%nat 1%nat 0%Z s1 S1) as (s' & E & Es). replace (Datatypes.S (maxIt - 2)) with (go_maxIt o - 1)%nat in E by (cbn; lia).
  exists s'. rewrite E. split; [reflexivity|exact Es].
Qed.
Print Assumptions C130_equilibrium.

(** two springs, masses 1 and 2, default damping 1 and alpha 2, started at zero: the hypotheses of
    [C130_success] and [C130_rate] *)
Definition exSprings : gprob (VS_prod VS_R VS_R) :=
  mkGProb (VS_prod VS_R VS_R) (fun x => (fst x, 2 * snd x)) (fun x => (fst x, snd x / 2)) (1, 0)
    (fun L u => Yes (L - (2 * fst u - snd u), 0 - (2 * snd u - fst u))).
Definition exK (x : VS_prod VS_R VS_R) : VS_prod VS_R VS_R := (2 * fst x - snd x, 2 * snd x - fst x).
Example C130_success_example :
  let xs : VS_prod VS_R VS_R := (2 / 3, 1 / 3) in
  relaxable exSprings 1 (1 / 2) 1 exK xs /\ below exSprings (1 / 2) 1 exK /\ (0, 0) <> xs.
Proof.
  cbv zeta. split; [|split].
  - split; unfold exK, exSprings; cbn.
    + split; cbn; intros; f_equal; ring.
    + intros [x1 x2] [y1 y2]. cbn. ring.
    + intros [x y]. cbn. do 2 f_equal; field.
    + split; cbn; intros; f_equal; ring.
    + intros [x1 x2] [y1 y2]. cbn. ring.
    + intros [x y]. cbn. f_equal. field.
    + exists 1. split; [lra|]. intros [x y]. cbn. pose proof (Rle_0_sqr (x - y)) as Q. unfold Rsqr in Q. lra.
    + exists 1, 2. split; [lra|]. intros [x y]. cbn. pose proof (Rle_0_sqr x) as Q1. pose proof (Rle_0_sqr y) as Q2. unfold Rsqr in *. lra.
    + lra.
    + lra.
  - exists (1 / 2). split; [lra|]. intros [x y]. cbn. pose proof (Rle_0_sqr (x + y)) as Q. pose proof (Rle_0_sqr x) as Q1. pose proof (Rle_0_sqr y) as Q2. unfold Rsqr in *. lra.
  - intros E. injection E. lra.
Qed.
(** one spring of stiffness 10 and mass 1: beyond the limit 6 of the default options; and the same
    spring started at its equilibrium, for [C130_equilibrium] *)
Definition exStiff : gprob VS_R := mkGProb VS_R (fun x => x) (fun x => x) 10 (fun L u => Yes (L * 10 - 10 * u : VS_R)).
Example C130_limit_example :
  let K : VS_R -> VS_R := fun x => 10 * x in
  relaxable exStiff 1 (1 / 2) 1 K 1 /\ K 1 = @vscale VS_R 10 (gp_mass exStiff 1) /\ 2 * (2 - 1 / 2 * 1) < 1 / 2 * 10 /\
  @dot VS_R (vsub (S := VS_R) 0 1) (gp_mass exStiff 1) <> 0 /\ gp_res exStiff 1 1 = Yes (v0 : VS_R).
Proof.
  cbv zeta. split; [|split; [|split; [|split]]].
  - split; cbn; intros; try lra.
    + split; cbn; intros; ring.
    + f_equal. unfold vsub, vopp. cbn. ring.
    + split; cbn; intros; ring.
    + exists 10. split; [lra|]. intros. nra.
    + exists 1, 1. split; [lra|]. intros. nra.
  - cbn. lra.
  - lra.
  - unfold vsub, vopp. cbn. lra.
  - cbn. f_equal. lra.
Qed.
