(** Short load steps from an equilibrium succeed: C113. *)
From Verif Require Import VS Status RunTac ALMBase ALMBaseProofs ALMStep ALMLog ALMPoints ALMRun NewtonConv Props_Static6 Props_ALMStep Props_ALMConverge.
Local Open Scope R_scope.

(** ** C113 *)
Lemma small a b : 0 <= a -> 0 < b -> exists l0, 0 < l0 /\ forall l, 0 < l <= l0 -> a * l < b.
Proof.
  intros Ha Hb. exists (b / (a + 1)). split; [apply Rdiv_lt_0_compat; lra|]. intros l Hl.
  assert (l * (a + 1) <= b) by (apply (Rmult_le_reg_r (/ (a + 1))); [apply Rinv_0_lt_compat; lra|]; rewrite Rmult_assoc, Rinv_r, Rmult_1_r by lra; apply Hl).
  lra.
Qed.
(** regularity about another centre *)
Lemma regular_shift {S : VS} {Mat : Type} (p : problem S Mat) k res (U : S) L (D0 D1 : VS_prod S VS_R) phi rho rho1 beta gamma :
  norm (D1 -v D0) + rho1 <= rho -> regularALM p k res U L D0 phi rho beta gamma -> regularALM p k res U L D1 phi rho1 beta gamma.
Proof.
  intros H [R1 R2]. assert (B : forall D : VS_prod S VS_R, norm (D -v D1) <= rho1 -> norm (D -v D0) <= rho).
  { intros D HD. replace (D -v D0) with ((D -v D1) +v (D1 -v D0)) by vring. eapply Rle_trans; [apply norm_triangle|]. lra. }
  split; [intros D HD; apply R1, B, HD|]. intros D du HD. destruct (R2 D du (B _ HD)) as (m & J & FC & LM & SV & BD & TY). exists m. repeat (split; [assumption|]). intros x HX. apply TY, B, HX.
Qed.
(** load control does not use phi *)
Lemma regular_phi {S : VS} {Mat : Type} (p : problem S Mat) res (U : S) L (D0 : VS_prod S VS_R) phi phi1 rho beta gamma :
  regularALM p LoadControl res U L D0 phi rho beta gamma -> regularALM p LoadControl res U L D0 phi1 rho beta gamma.
Proof. intros [R1 R2]. split; [exact R1|exact R2]. Qed.
Theorem C113_short_load_steps {S : VS} {Mat : Type} (p : problem S Mat) (o : opts) (res : S -> R -> S) (U : S) (L : R) (m : Mat) (rho beta gamma : R) :
  o_quasi o = false -> stabReady p o -> (2 <= o_maxIt o)%nat -> 0 < o_tolF o -> 0 < o_tolU o -> p_F p <> v0 ->
  (* (U, L) is an equilibrium, and the equations are regular around it *)
  res U L = v0 -> 0 < rho -> 0 <= beta -> 0 <= gamma -> regularALM p LoadControl res U L v0 0 rho beta gamma ->
  (forall du, p_jacobian p U du = Some m) ->
  exists l0, 0 < l0 /\ forall (s : st S Mat), s_initialized s = true -> s_guess s = None -> s_U s = U -> s_L s = L -> 0 < s_len s <= l0 ->
    exists s', step p o LoadControl s = Ret tt s' /\ s_stat s' = Success /\ s_numIt s' = 1%nat /\ s_L s' = L + s_len s /\
      norm (res (s_U s') (s_L s')) <= gamma * (beta * beta) * (s_len s * s_len s) / 4.
Proof.
  intros HQ SR0 HM TF TU NF EQ Hr Hb Hg RG HJ.
  assert (P0 : norm ((v0 : VS_prod S VS_R) -v v0) <= rho) by (replace ((v0 : VS_prod S VS_R) -v v0) with (v0 : VS_prod S VS_R) by vring; rewrite (norm_0 (S := VS_prod S VS_R)); lra).
  assert (U0 : U +v fst (v0 : VS_prod S VS_R) = U) by (cbn; vring). assert (L0 : L + snd (v0 : VS_prod S VS_R) = L) by (cbn; ring).
  destruct (ra_jac _ _ _ _ _ _ _ _ _ _ RG v0 v0 P0) as (m' & J & FC & LM & SV & BD & TY). rewrite U0, HJ in J. injection J as <-.
  destruct (SV (p_F p)) as (t & St & Mt).
  assert (BT : norm ((t, 1) : VS_prod S VS_R) <= beta).
  { pose proof (BD (t, 1)) as B. cbn [fst snd] in B. rewrite Mt in B. replace (p_F p -v 1 *v p_F p) with (v0 : S) in B by vring. cbn [dconsOf snd] in B.
    replace (@norm (VS_prod S VS_R) (v0, 1)) with 1 in B; [lra|]. unfold norm. cbn. rewrite dot_0_l. replace (0 + 1 * 1) with 1 by ring. symmetry. exact sqrt_1. }
  assert (PT : 0 < norm t).
  { destruct (norm_pos t) as [H|H]; [exact H|]. exfalso. apply NF. rewrite <- Mt. symmetry in H. apply norm_zero in H. rewrite H. apply (lin_0 LM). }
  assert (PFF : 0 < norm (p_F p)) by (destruct (norm_pos (p_F p)) as [H|H]; [exact H|]; exfalso; apply NF, norm_zero; auto).
  assert (B2 : 0 <= beta * beta) by (apply Rmult_le_pos; lra). set (C := gamma * (beta * beta)). assert (HC : 0 <= C) by (apply Rmult_le_pos; assumption).
  destruct (small (beta * gamma * beta * C) (1/4)) as (l1 & P1 & Q1); [repeat apply Rmult_le_pos; assumption|lra|].
  destruct (small (4/3 * (beta * C)) (rho / 2)) as (l2 & P2 & Q2); [assert (0 <= beta * C) by (apply Rmult_le_pos; assumption); lra|lra|].
  destruct (small (beta * C) (o_tolU o * norm t)) as (l3 & P3 & Q3); [apply Rmult_le_pos; assumption|apply Rmult_lt_0_compat; assumption|].
  destruct (small C (o_tolF o * norm (p_F p))) as (l4 & P4 & Q4); [assumption|apply Rmult_lt_0_compat; assumption|].
  destruct (small beta (rho / 2)) as (l5 & P5 & Q5); [assumption|lra|].
  set (l6 := if Rltb L 0 then - L / 2 else 1). assert (P6 : 0 < l6) by (unfold l6; destruct (Rltb L 0) eqn:E; [apply Rltb_true in E|]; lra).
  assert (Q6 : forall l, 0 < l <= l6 -> l <= Rabs (L + l)).
  { intros l Hl. unfold l6 in Hl. destruct (Rltb L 0) eqn:E; [apply Rltb_true in E; rewrite Rabs_left by lra; lra|apply Rltb_false in E; rewrite Rabs_pos_eq by lra; lra]. }
  exists (Rmin 1 (Rmin (Rmin l1 (Rmin l2 l3)) (Rmin l4 (Rmin l5 l6)))). split; [repeat apply Rmin_pos; lra|].
  intros s HI HG EU EL Hl. set (l := s_len s) in *.
  assert (LL : l <= 1 /\ l <= l1 /\ l <= l2 /\ l <= l3 /\ l <= l4 /\ l <= l5 /\ l <= l6).
  { destruct Hl as [_ Hl]. repeat match type of Hl with _ <= Rmin ?a ?b => idtac end.
    pose proof (Rmin_l 1 (Rmin (Rmin l1 (Rmin l2 l3)) (Rmin l4 (Rmin l5 l6)))). pose proof (Rmin_r 1 (Rmin (Rmin l1 (Rmin l2 l3)) (Rmin l4 (Rmin l5 l6)))).
    pose proof (Rmin_l (Rmin l1 (Rmin l2 l3)) (Rmin l4 (Rmin l5 l6))). pose proof (Rmin_r (Rmin l1 (Rmin l2 l3)) (Rmin l4 (Rmin l5 l6))).
    pose proof (Rmin_l l1 (Rmin l2 l3)). pose proof (Rmin_r l1 (Rmin l2 l3)). pose proof (Rmin_l l2 l3). pose proof (Rmin_r l2 l3).
    pose proof (Rmin_l l4 (Rmin l5 l6)). pose proof (Rmin_r l4 (Rmin l5 l6)). pose proof (Rmin_l l5 l6). pose proof (Rmin_r l5 l6). repeat split; lra. }
  destruct LL as (A0 & A1 & A2 & A3 & A4 & A5 & A6). destruct Hl as [Hl _].
  specialize (Q1 l (conj Hl A1)). specialize (Q2 l (conj Hl A2)). specialize (Q3 l (conj Hl A3)). specialize (Q4 l (conj Hl A4)). specialize (Q5 l (conj Hl A5)). specialize (Q6 l (conj Hl A6)).
  clear l1 l2 l3 l4 l5 l6 P1 P2 P3 P4 P5 P6 A1 A2 A3 A4 A5 A6.
  (* the predictor *)
  assert (EP : exists sP, predict p o LoadControl (started LoadControl s) = Ret tt sP /\ s_DU sP = l *v t /\ s_DL sP = l).
  { set (s0 := started LoadControl s). assert (G0 : s_guess s0 = None /\ s_U s0 = U /\ s_DU s0 = v0 /\ s_len s0 = l) by (unfold s0; cbn; auto). destruct G0 as (G0 & U1 & D1 & N1). clearbody s0 l.
    unfold predict. rewrite G0. unfold predictor.
    assert (J : p_jacobian p (s_U s0 +v s_DU s0) (s_dU s0) = Some m) by (rewrite U1, D1; replace (U +v v0) with U by vring; apply HJ).
    destruct (jac_run p m s0 J FC) as (s1 & R1 & K1 & F1 & J1 & V1). rewrite R1. cbn [obind].
    destruct (ut_run p m t (set_DL (s_len s1) (set_dL (s_len s1) s1)) F1 St) as (s2 & R2 & K2 & F2 & J2 & V2 & T2). rewrite R2. cbn [obind]. eexists. split; [reflexivity|].
    injection K1 as. remember (set_DL (s_len s1) (set_dL (s_len s1) s1)) as z. assert (Z : s_DL z = s_len s1 /\ s_dL z = s_len s1) by (subst z; split; reflexivity). destruct Z as [Z1 Z2]. injection K2 as. cbn. split; [rewrite T2; f_equal; congruence|congruence]. }
  destruct EP as (sP & EP & EDU & EDL). pose (D0 := (s_DU sP, s_DL sP) : VS_prod S VS_R).
  assert (ED : D0 = l *v ((t, 1) : VS_prod S VS_R)) by (unfold D0; rewrite EDU, EDL; cbn; f_equal; ring).
  assert (ND : norm D0 <= l * beta) by (rewrite ED, norm_scale, Rabs_pos_eq by lra; apply Rmult_le_compat_l; lra).
  assert (SH : norm (D0 -v v0) <= rho / 2) by (replace (D0 -v v0) with D0 by vring; lra).
  set (r0 := norm ((res (s_U s +v s_DU sP) (s_L s + s_DL sP), consOf p LoadControl (s_phi sP) (s_len s) (s_DL sP) D0) : VS_prod S VS_R)).
  assert (R0 : r0 <= C * (l * l)).
  { unfold r0. eapply Rle_trans; [apply norm_pair|]. replace (consOf _ _ _ _ _ _) with 0 by (unfold D0; cbn; ring). rewrite Rabs_R0, Rplus_0_r.
    assert (BX : norm ((v0 : VS_prod S VS_R) +v D0 -v v0) <= rho) by (replace ((v0 : VS_prod S VS_R) +v D0 -v v0) with (D0 -v v0) by vring; lra).
    pose proof (TY D0 BX) as T. rewrite U0, L0, EQ in T. replace ((v0 : VS_prod S VS_R) +v D0) with D0 in T by vring. unfold D0 in T. cbn [fst snd] in T.
    rewrite EDU, EDL, (lin_scale _ LM), Mt in T. replace (v0 +v l *v p_F p -v l *v p_F p) with (v0 : S) in T by vring. rewrite EU, EL, EDU, EDL.
    match type of T with norm (?y -v v0) <= _ => replace (y -v v0) with y in T by vring end. eapply Rle_trans; [exact T|]. unfold C. rewrite Rmult_assoc. apply Rmult_le_compat_l; [exact Hg|].
    assert (ND2 : @norm (VS_prod S VS_R) (l *v t, l) <= l * beta) by (pose proof ND as Z; unfold D0 in Z; rewrite EDU, EDL in Z; exact Z). replace (beta * beta * (l * l)) with ((l * beta) * (l * beta)) by ring. apply Rmult_le_compat; auto using norm_pos. }
  assert (R1 : r0 <= C * l) by (eapply Rle_trans; [exact R0|]; apply Rmult_le_compat_l; [exact HC|]; rewrite <- (Rmult_1_r l) at 3; apply Rmult_le_compat_l; lra).
  assert (BR : beta * r0 <= beta * C * l) by (rewrite Rmult_assoc; apply Rmult_le_compat_l; assumption).
  destruct (C112_converges p o LoadControl res s sP 1 beta gamma (rho / 2) (1/4)) as (s' & E & ST & CV & NI & _ & BB); try assumption; fold D0; fold r0.
  - discriminate.
  - rewrite EL, EDL, norm_scale. apply Rmult_lt_0_compat; lra.
  - rewrite EDU, norm_scale, Rabs_pos_eq by lra. apply Rmult_lt_0_compat; assumption.
  - rewrite EU, EL. apply (regular_phi _ _ _ _ _ 0). apply (regular_shift _ _ _ _ _ v0 D0 0 rho); [lra|exact RG].
  - cbn [curvOf]. split; [|lra]. rewrite Rplus_0_r. eapply Rle_trans; [apply Rmult_le_compat_l; [apply Rmult_le_pos; assumption|exact BR]|]. lra.
  - lra.
  - lia.
  - cbn [Nat.sub Nat.pow pow]. rewrite Rmult_1_l, EDU, norm_scale, Rabs_pos_eq by lra.
    assert (beta * r0 <= beta * C * l * l) by (replace (beta * C * l * l) with (beta * (C * (l * l))) by ring; apply Rmult_le_compat_l; assumption).
    assert (beta * C * l * l < o_tolU o * norm t * l) by (apply Rmult_lt_compat_r; assumption). lra.
  - change ((1/4) ^ (2 ^ 1 - 1)) with (1/4 * 1). rewrite EL, EDL, norm_scale.
    assert (C * (l * l) < o_tolF o * norm (p_F p) * l) by (replace (C * (l * l)) with (C * l * l) by ring; apply Rmult_lt_compat_r; assumption).
    assert (o_tolF o * norm (p_F p) * l <= o_tolF o * norm (p_F p) * Rabs (L + l)) by (apply Rmult_le_compat_l; [apply Rmult_le_pos; lra|exact Q6]).
    assert (0 <= r0) by apply norm_pos. lra.
  - exists s'. split; [exact E|]. split; [exact ST|]. assert (N1 : s_numIt s' = 1%nat) by lia. split; [exact N1|]. split; [rewrite <- EL; apply (C32_load_control_partial p o s s' HM HG E); exact ST|].
    rewrite N1 in BB. cbv zeta in BB. change ((1/4) ^ (2 ^ 1 - 1)) with (1/4 * 1) in BB. fold D0 r0 in BB. match type of BB with norm ?z <= _ => pose proof (norm_1 z) as Z end. cbn [fst] in Z. fold C. lra.
Qed.
Print Assumptions C113_short_load_steps.

(** the hardening spring of C112 at rest, MaxIter = 2 and tolerances 1/100 *)
Example C113_example : exists l0, 0 < l0 /\ forall len, 0 < len <= l0 -> exists s', step hardSpring (exOpts 2) LoadControl (exSt VS_R R len) = Ret tt s' /\
  s_stat s' = Success /\ s_numIt s' = 1%nat /\ s_L s' = 0 + len /\ Rabs (s_U s' + s_U s' * s_U s' / 100 - s_L s') <= len * len / 25.
Proof.
  assert (RG : regularALM hardSpring LoadControl (fun u l => u + u * u / 100 - l : VS_R) (0 : VS_R) 0 v0 0 (1/2) 4 (1/100)).
  { split; [reflexivity|]. intros D du HD. pose proof (norm_1 (S := VS_R) (D -v v0)) as H1. rewrite norm_R in H1. pose proof (Rle_trans _ _ _ H1 HD) as A1. clear H1 HD. destruct D as [a b]. cbn in A1. apply Rabs_both in A1.
    change R in a, b. cbn [fst snd]. exists (1 + a / 50).
    split; [cbn; do 2 f_equal; field|]. split; [cbn; rewrite (proj2 (Reqb_false _ _)) by lra; reflexivity|]. split; [split; intros; cbn; ring|].
    split; [intros f; exists (f / (1 + a / 50)); split; [reflexivity|cbn; field; lra]|]. split.
    - intros [x y]. change R in x, y. cbn [fst snd]. match goal with |- _ <= 4 * norm ?z => pose proof (norm_1 (S := VS_R) z) as H1; pose proof (norm_2 (S := VS_R) z) as H2; set (n := @norm (VS_prod VS_R VS_R) z) in * end.
      eapply Rle_trans; [apply (norm_pair (S := VS_R))|]. rewrite norm_R in *. cbn in H1, H2. match type of H1 with Rabs ?z <= _ => set (y1 := z) in * end.
      assert (X : x * (1 + a / 50) = y1 + y) by (unfold y1; ring).
      assert (B1 : Rabs x * (98/100) <= n + n).
      { eapply Rle_trans with (Rabs (x * (1 + a / 50))).
        - rewrite Rabs_mult, (Rabs_pos_eq (1 + a / 50)) by lra. apply Rmult_le_compat_l; [apply Rabs_pos|lra].
        - rewrite X. eapply Rle_trans; [apply Rabs_triang|]. lra. }
      pose proof (Rabs_pos y1). lra.
    - intros [x y] HX. change R in x, y. rewrite norm_R. cbn [fst snd]. pose proof (norm_1 (S := VS_R) (x, y)) as H1. rewrite norm_R in H1. cbn [fst] in H1. set (n := norm ((x, y) : VS_prod VS_R VS_R)) in *.
      match goal with |- Rabs ?z <= _ => replace z with (1/100 * (x * x)) by (cbn; field) end. rewrite Rabs_mult, (Rabs_pos_eq (1/100)) by lra. apply Rmult_le_compat_l; [lra|]. rewrite Rabs_mult. apply Rmult_le_compat; auto using Rabs_pos. }
  destruct (C113_short_load_steps hardSpring (exOpts 2) (fun u l => u + u * u / 100 - l : VS_R) (0 : VS_R) 0 (1 + 0 / 50) (1/2) 4 (1/100)) as (l0 & P0 & H);
    [reflexivity|split; [discriminate|discriminate|discriminate|intros m l H; injection H as <-; discriminate]|cbn; lia|cbn; lra|cbn; lra|cbn; lra|cbn; lra|lra|lra|lra|exact RG|reflexivity|].
  exists l0. split; [exact P0|]. intros len HL. destruct (H (exSt VS_R R len) eq_refl eq_refl eq_refl eq_refl HL) as (s' & E & ST & N1 & EL & B). rewrite norm_R in B. cbn [s_len exSt] in B. exists s'. repeat (split; [assumption|]). lra.
Qed.
