(** Convergence of Newton's iteration for g(D) = 0 from D = 0, as far as it does not depend on the
    class that runs it: used by C110 to C112. *)
From Verif Require Import VS.
From Coq Require Import Reals Lra Lia.
Local Open Scope R_scope.

Section Conv.
Context {S : VS}.
Variables (g : S -> S) (x0 : S) (beta gamma h : R).
Hypothesis Hb : 0 <= beta. Hypothesis Hg : 0 <= gamma.
Hypothesis Hh : beta * gamma * norm x0 <= h <= 1/4.
Notation X := (norm x0).
Lemma cX_pos : x0 <> v0 -> 0 < X.
Proof. intros Hx. pose proof (norm_pos x0). destruct (Req_dec (norm x0) 0) as [E|E]; [apply norm_zero in E; contradiction|lra]. Qed.
Lemma ch_pos : 0 <= h.
Proof. pose proof (norm_pos x0). assert (0 <= beta * gamma * norm x0) by (repeat apply Rmult_le_pos; lra). lra. Qed.
(** after pass number k: the sum [D] of the increments, the last increment [d] *)
Definition near (k : nat) (D d : S) : Prop :=
  norm d <= h ^ (2 ^ k - 1) * norm x0 /\ norm (D -v x0) + norm d / 3 <= norm x0 / 3 /\ norm (g D) <= gamma * (norm d * norm d).
Lemma near_ball k D d : near k D d -> norm D <= 4/3 * norm x0.
Proof.
  intros (_ & B & _). pose proof (norm_pos d). replace D with ((D -v x0) +v x0) by vring. pose proof (norm_triangle (D -v x0) x0). lra.
Qed.
Lemma near_first : norm (g x0) <= gamma * (norm x0 * norm x0) -> near 0 x0 x0.
Proof.
  intros H. split; [|split; [|exact H]].
  - change (2 ^ 0 - 1)%nat with 0%nat. rewrite pow_O. lra.
  - replace (x0 -v x0) with (v0 : S) by vring. rewrite norm_0. lra.
Qed.
Lemma near_next k D d e : near k D d -> norm e <= beta * norm (g D) ->
  (norm (D +v e) <= 4/3 * norm x0 -> norm (g (D +v e)) <= gamma * (norm e * norm e)) -> near (Datatypes.S k) (D +v e) e.
Proof.
  intros (B1 & B2 & B3) NE TY. pose proof (norm_pos x0) as XP. pose proof ch_pos as HP.
  pose proof (norm_pos d) as P1. pose proof (norm_pos (D -v x0)) as P2. pose proof (norm_pos e) as P3.
  assert (P4 : h ^ (2 ^ k - 1) <= 1) by (rewrite <- (pow1 (2 ^ k - 1)); apply pow_incr; lra).
  assert (D2 : norm e <= beta * gamma * (norm d * norm d)).
  { eapply Rle_trans; [exact NE|]. rewrite Rmult_assoc. apply Rmult_le_compat_l; assumption. }
  assert (DX : norm d <= X) by (eapply Rle_trans; [exact B1|]; rewrite <- (Rmult_1_l X) at 2; apply Rmult_le_compat_r; lra).
  assert (BG : 0 <= beta * gamma) by (apply Rmult_le_pos; assumption).
  assert (D4 : norm e <= norm d / 4).
  { assert (beta * gamma * (norm d * norm d) <= beta * gamma * (X * norm d)) by (apply Rmult_le_compat_l; [exact BG|apply Rmult_le_compat_r; lra]).
    assert (beta * gamma * X * norm d <= 1/4 * norm d) by (apply Rmult_le_compat_r; [exact P1|lra]). lra. }
  assert (DK : norm e <= h ^ (2 ^ Datatypes.S k - 1) * X).
  { assert (E : (2 ^ Datatypes.S k - 1 = 1 + ((2 ^ k - 1) + (2 ^ k - 1)))%nat) by (cbn [Nat.pow]; pose proof (Nat.pow_nonzero 2 k ltac:(lia)); lia).
    rewrite E, !pow_add, pow_1. set (q := h ^ (2 ^ k - 1)) in *.
    assert (norm d * norm d <= q * X * (q * X)) by (apply Rmult_le_compat; assumption).
    assert (beta * gamma * (norm d * norm d) <= beta * gamma * (q * X * (q * X))) by (apply Rmult_le_compat_l; assumption).
    assert (Q0 : 0 <= q) by (apply pow_le; exact HP).
    assert (beta * gamma * X * (q * q * X) <= h * (q * q * X)) by (apply Rmult_le_compat_r; [repeat apply Rmult_le_pos; lra|lra]). lra. }
  assert (B2' : norm (D +v e -v x0) + norm e / 3 <= X / 3).
  { replace (D +v e -v x0) with ((D -v x0) +v e) by vring. pose proof (norm_triangle (D -v x0) e). lra. }
  split; [exact DK|]. split; [exact B2'|]. apply TY.
  replace (D +v e) with ((D +v e -v x0) +v x0) by vring. pose proof (norm_triangle (D +v e -v x0) x0). lra.
Qed.
Lemma near_res k D d r0 : 0 <= r0 -> X <= beta * r0 -> near k D d -> norm (g D) <= h ^ (2 ^ Datatypes.S k - 1) * r0.
Proof.
  intros R0 I1 (B1 & B2 & B3). pose proof (norm_pos x0) as XP. pose proof ch_pos as HP.
  pose proof (norm_pos d) as P1. set (q := h ^ (2 ^ k - 1)) in *. assert (Q0 : 0 <= q) by (apply pow_le; exact HP).
  assert (E : (2 ^ Datatypes.S k - 1 = 1 + ((2 ^ k - 1) + (2 ^ k - 1)))%nat) by (cbn [Nat.pow]; pose proof (Nat.pow_nonzero 2 k ltac:(lia)); lia).
  rewrite E, !pow_add, pow_1. fold q.
  assert (norm d * norm d <= q * X * (q * X)) by (apply Rmult_le_compat; assumption).
  assert (gamma * (norm d * norm d) <= gamma * (q * X * (q * X))) by (apply Rmult_le_compat_l; assumption).
  assert (gamma * (q * X * (q * X)) <= gamma * (q * X * (q * (beta * r0)))) by (apply Rmult_le_compat_l; [assumption|]; apply Rmult_le_compat_l; [apply Rmult_le_pos; lra|apply Rmult_le_compat_l; assumption]).
  assert (beta * gamma * X * (q * q * r0) <= h * (q * q * r0)) by (apply Rmult_le_compat_r; [repeat apply Rmult_le_pos; lra|lra]). lra.
Qed.
(** the last increment against anything that was at least as long as x0 after the first pass *)
Lemma near_upd k D d (y : S) : X <= norm (y +v x0) -> near k D d -> 2/3 * X <= norm (y +v D) /\ norm d <= 3/2 * h ^ (2 ^ k - 1) * norm (y +v D).
Proof.
  intros Y (B1 & B2 & B3). pose proof (norm_pos x0) as XP. pose proof ch_pos as HP.
  pose proof (norm_pos d) as P1. set (q := h ^ (2 ^ k - 1)) in *. assert (Q0 : 0 <= q) by (apply pow_le; exact HP).
  assert (LB : 2/3 * X <= norm (y +v D)).
  { pose proof (norm_triangle (y +v D) (vopp (D -v x0))) as T. rewrite norm_opp in T. replace (y +v D +v vopp (D -v x0)) with (y +v x0) in T by vring. lra. }
  split; [exact LB|]. assert (3/2 * q * (2/3 * X) <= 3/2 * q * norm (y +v D)) by (apply Rmult_le_compat_l; lra). lra.
Qed.
(** a norm of an update, relative to the unknown where that is not zero, below the tolerance *)
Lemma near_test k D d y tol : x0 <> v0 -> X <= norm (y +v x0) -> near k D d -> 3/2 * h ^ (2 ^ k - 1) < tol ->
  (if Req_EM_T (norm (y +v D)) 0 then norm d else norm d / norm (y +v D)) < tol.
Proof.
  intros Hx Y N T. destruct (near_upd k D d y Y N) as [A B]. pose proof (cX_pos Hx). destruct (Req_EM_T _ _) as [E|E]; [lra|].
  apply (Rmult_lt_reg_r (norm (y +v D))); [lra|]. unfold Rdiv. rewrite Rmult_assoc, Rinv_l, Rmult_1_r by lra.
  eapply Rle_lt_trans; [exact B|]. apply Rmult_lt_compat_r; lra.
Qed.
End Conv.
