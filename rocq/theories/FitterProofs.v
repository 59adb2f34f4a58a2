(** Lemmas on the fitters (Fitter.v) *)
From Verif Require Import Prelude VS Fitter.
Local Open Scope R_scope.

(** ** the map of the data *)
Lemma rset_keys {V} k (v : V) m x : In x (map fst (rset k v m)) -> x = k \/ In x (map fst m).
Proof.
  induction m as [|[a w] m IH]; cbn; [intuition congruence|].
  destruct (Reqb k a); cbn; [intuition congruence|]. destruct (Rltb k a); cbn; intuition congruence.
Qed.
Lemma rset_incr {V} k (v : V) m : incr (map fst m) -> incr (map fst (rset k v m)).
Proof.
  induction m as [|[a w] m IH]; cbn; intros H; [apply incr_one|].
  pose proof H as H'. apply incr_cons in H as [H1 H2].
  destruct (Reqb k a) eqn:E; [apply Reqb_true in E as ->; exact H'|].
  destruct (Rltb k a) eqn:F; cbn; apply incr_cons.
  - apply Rltb_true in F. split; [exact H'|]. intros y [<-|Hy]; [exact F|]. specialize (H2 _ Hy). lra.
  - apply Rltb_false in F. apply Reqb_false in E. split; [auto|]. intros y Hy.
    apply rset_keys in Hy as [->|Hy]; [lra|auto].
Qed.
Lemma rinsert_incr {V} k (v : V) m : incr (map fst m) -> incr (map fst (rinsert k v m)).
Proof. intros H. unfold minsert. destruct (rfind k m); [exact H|apply rset_incr, H]. Qed.
Lemma rfind_rinsert {V} k (v : V) m x :
  rfind x (rinsert k v m) = match rfind x m with Some w => Some w | None => if Reqb x k then Some v else None end.
Proof.
  unfold minsert. destruct (rfind k m) as [w|] eqn:E.
  - destruct (rfind x m) eqn:F; [auto|]. destruct (Reqb x k) eqn:G; [|auto]. apply Reqb_true in G as ->. congruence.
  - destruct (Reqb x k) eqn:G.
    + apply Reqb_true in G as ->. rewrite E. apply (mfind_mset_same Reqb Rltb Reqb_true).
    + apply Reqb_false in G. rewrite (mfind_mset_other Reqb Rltb Reqb_true) by congruence. destruct (rfind x m); auto.
Qed.

(** ** chord lengths *)
Lemma parPow_pos k x : 0 < x -> 0 < parPow k x.
Proof. intros H. unfold parPow. destruct (k =? 1)%Z; [exact H|apply sqrt_lt_R0, H]. Qed.
Lemma chordSum_pos k l : forall t, incr (t :: l) -> l <> [] -> 0 < chordSum k t l.
Proof.
  induction l as [|a l IH]; intros t H N; [congruence|]. apply incr_cons in H as [H1 H2]. cbn.
  assert (0 < parPow k (a - t)) by (apply parPow_pos; specialize (H2 a (or_introl eq_refl)); lra).
  destruct l as [|b l]; [cbn; lra|]. specialize (IH a H1 ltac:(discriminate)). lra.
Qed.
Lemma ubarFrom_length k d l : forall acc t, length (ubarFrom k d acc t l) = length l.
Proof. induction l as [|a [|b l] IH]; intros; cbn in *; [auto|auto|f_equal; apply IH]. Qed.
Lemma ubar_length k ts : length (ubar k ts) = length ts.
Proof. destruct ts; cbn; [auto|f_equal; apply ubarFrom_length]. Qed.
(** from the current entry on: increasing up to the last entry 1 *)
Lemma ubarFrom_incr k d l : 0 < d -> forall acc t, incr (t :: l) -> acc + 1 / d * chordSum k t l = 1 ->
  incr (acc :: ubarFrom k d acc t l) /\ (l <> [] -> last (ubarFrom k d acc t l) 0 = 1).
Proof.
  intros Hd. assert (Hi : 0 < 1 / d) by (apply Rdiv_lt_0_compat; lra).
  induction l as [|a l IH]; intros acc t H E; [cbn; split; [apply incr_one|congruence]|].
  apply incr_cons in H as [H1 H2].
  assert (P : 0 < parPow k (a - t)) by (apply parPow_pos; specialize (H2 a (or_introl eq_refl)); lra).
  assert (Q : 0 < 1 / d * parPow k (a - t)) by (apply Rmult_lt_0_compat; auto).
  destruct l as [|b l].
  - cbn [ubarFrom]. cbn [chordSum] in E. split; [|reflexivity].
    apply incr_cons. split; [apply incr_one|]. intros y [<-|[]]. nra.
  - specialize (IH (acc + 1 / d * parPow k (a - t)) a H1).
    destruct IH as [I1 I2]; [cbn [chordSum] in *; lra|].
    change (ubarFrom k d acc t (a :: b :: l)) with ((acc + 1 / d * parPow k (a - t)) :: ubarFrom k d (acc + 1 / d * parPow k (a - t)) a (b :: l)).
    split.
    + apply incr_cons. split; [exact I1|]. intros y [<-|Hy]; [lra|]. apply incr_cons in I1 as [_ I1]. specialize (I1 _ Hy). lra.
    + intros _. specialize (I2 ltac:(discriminate)). pose proof (ubarFrom_length k d (b :: l) (acc + 1 / d * parPow k (a - t)) a) as L.
      destruct (ubarFrom k d (acc + 1 / d * parPow k (a - t)) a (b :: l)) eqn:U; [discriminate L|exact I2].
Qed.
Lemma ubar_incr k ts : incr ts -> (2 <= length ts)%nat -> incr (ubar k ts) /\ nth 0 (ubar k ts) 0 = 0 /\ last (ubar k ts) 0 = 1.
Proof.
  destruct ts as [|t [|a l]]; cbn [length]; try lia. intros H _.
  pose proof (chordSum_pos k (a :: l) t H ltac:(discriminate)) as P.
  destruct (ubarFrom_incr k (chordSum k t (a :: l)) (a :: l) P 0 t H) as [I L].
  { field. lra. }
  specialize (L ltac:(discriminate)). split; [exact I|]. split; [reflexivity|].
  pose proof (ubarFrom_length k (chordSum k t (a :: l)) (a :: l) 0 t) as N. unfold ubar.
  destruct (ubarFrom k (chordSum k t (a :: l)) 0 t (a :: l)) eqn:U; [discriminate N|exact L].
Qed.
(** chord lengths with exponent one: the relative times *)
Lemma ubarFrom_chord d l : 0 < d -> forall acc t, acc + 1 / d * chordSum 1 t l = 1 ->
  ubarFrom 1 d acc t l = map (fun x => acc + (x - t) / d) l.
Proof.
  intros Hd. induction l as [|a l IH]; intros acc t E; [reflexivity|].
  destruct l as [|b l].
  - cbn [ubarFrom map]. cbn [chordSum] in E. unfold parPow in E. cbn in E. f_equal. rewrite <- E. field. lra.
  - change (ubarFrom 1 d acc t (a :: b :: l)) with ((acc + 1 / d * parPow 1 (a - t)) :: ubarFrom 1 d (acc + 1 / d * parPow 1 (a - t)) a (b :: l)).
    rewrite IH; [|cbn [chordSum] in *; lra]. unfold parPow. cbn [Z.eqb Pos.eqb]. cbn [map].
    f_equal; [field; lra|]. f_equal; [field; lra|]. apply map_ext. intros x. field. lra.
Qed.
Lemma chordSum_one l : forall t, chordSum 1 t l = last l t - t.
Proof.
  induction l as [|a l IH]; intros t; [cbn; lra|]. cbn [chordSum]. rewrite IH. unfold parPow. cbn [Z.eqb Pos.eqb].
  destruct l as [|b l]; [cbn; lra|]. change (last (a :: b :: l) t) with (last (b :: l) t).
  assert (Q : forall d, last (b :: l) d = last (b :: l) t).
  { clear. revert b. induction l as [|c l IH]; intros b d; [reflexivity|]. exact (IH c d). }
  rewrite (Q a). lra.
Qed.

(** ** sorted lists *)
Lemma incr_nth l i j : incr l -> (i < j < length l)%nat -> nth i l 0 < nth j l 0.
Proof.
  intros H. revert i j. induction l as [|a l IH]; intros i j [A B]; [cbn in B; lia|].
  apply incr_cons in H as [H1 H2]. destruct j as [|j]; [lia|]. cbn in B. destruct i as [|i]; cbn.
  - apply H2, nth_In. lia.
  - apply IH; [exact H1|lia].
Qed.
Lemma incr_seq_map (f : nat -> R) n : forall a, (forall i, (a <= i)%nat -> (S i < a + n)%nat -> f i < f (S i)) -> incr (map f (seq a n)).
Proof.
  induction n as [|n IH]; intros a H; [constructor|]. cbn [seq map]. apply incr_cons. split.
  - apply IH. intros i A B. apply H; lia.
  - intros y Hy. apply in_map_iff in Hy as (j & <- & Hj). apply in_seq in Hj.
    assert (G : forall d, (S a + d < S a + n)%nat -> f a < f (S a + d)%nat).
    { induction d as [|d ID]; intros L; [rewrite Nat.add_0_r; apply H; lia|].
      apply Rlt_trans with (f (S a + d)%nat); [apply ID; lia|]. replace (S a + S d)%nat with (S (S a + d)) by lia. apply H; lia. }
    replace j with (S a + (j - S a))%nat by lia. apply G. lia.
Qed.
Lemma Rsum_map_lt (f g : nat -> R) l : (forall i, In i l -> f i < g i) -> l <> [] -> Rsum (map f l) < Rsum (map g l).
Proof.
  induction l as [|a l IH]; intros H N; [congruence|]. cbn [map]. rewrite !Rsum_cons.
  pose proof (H a (or_introl eq_refl)). destruct l as [|b l]; [cbn; lra|].
  assert (Rsum (map f (b :: l)) < Rsum (map g (b :: l))); [|lra]. apply IH; [|discriminate]. intros i Hi. apply H. right. exact Hi.
Qed.
Lemma Rsum_const (c : R) (l : list nat) : Rsum (map (fun _ => c) l) = INR (length l) * c.
Proof. induction l as [|a l IH]; [change (0 = 0 * c); ring|]. cbn [map length]. rewrite Rsum_cons, S_INR, IH. ring. Qed.
Lemma seq_shift_map (f : nat -> R) j n : map f (seq (S j) n) = map (fun i => f (S i)) (seq j n).
Proof. rewrite <- seq_shift, map_map. reflexivity. Qed.
Lemma last_nth (l : list R) d : last l d = nth (length l - 1) l d.
Proof. induction l as [|a [|b l] IH]; [reflexivity|reflexivity|]. change (last (a :: b :: l) d) with (last (b :: l) d). rewrite IH. cbn. rewrite Nat.sub_0_r. reflexivity. Qed.

(** the average of deg entries of an increasing list from 0 to 1 *)
Lemma window_incr ub p : incr ub -> nth 0 ub 0 = 0 -> last ub 0 = 1 -> (0 < p)%nat -> (p < length ub)%nat ->
  incr (0 :: map (fun j => Rsum (map (fun i => nth i ub 0) (seq j p)) / INR p) (seq 1 (length ub - p - 1)) ++ [1]).
Proof.
  intros H H0 H1 Hp Hl. assert (P : 0 < INR p) by (apply lt_0_INR; lia). assert (Pi : 0 < / INR p) by (apply Rinv_0_lt_compat; lra).
  rewrite last_nth in H1.
  assert (B : forall j, (1 <= j)%nat -> (j + p <= length ub - 1)%nat -> 0 < Rsum (map (fun i => nth i ub 0) (seq j p)) / INR p < 1).
  { intros j J1 J2. assert (N : seq j p <> []) by (destruct p; [lia|discriminate]).
    assert (A : Rsum (map (fun _ => 0) (seq j p)) < Rsum (map (fun i => nth i ub 0) (seq j p))).
    { apply Rsum_map_lt; [|exact N]. intros i Hi. apply in_seq in Hi. pose proof (incr_nth ub 0 i H ltac:(lia)). lra. }
    assert (C : Rsum (map (fun i => nth i ub 0) (seq j p)) < Rsum (map (fun _ => 1) (seq j p))).
    { apply Rsum_map_lt; [|exact N]. intros i Hi. apply in_seq in Hi. pose proof (incr_nth ub i (length ub - 1) H ltac:(lia)). lra. }
    rewrite Rsum_const in A, C. rewrite seq_length in C, A. split; [apply Rdiv_lt_0_compat; lra|].
    apply Rmult_lt_reg_r with (INR p); [exact P|]. unfold Rdiv. rewrite Rmult_assoc, Rinv_l by lra. lra. }
  apply incr_cons. split.
  - apply incr_app. repeat split; [|apply incr_one|].
    + apply incr_seq_map. intros j J1 J2. unfold Rdiv. apply Rmult_lt_compat_r; [lra|]. rewrite seq_shift_map.
      apply Rsum_map_lt; [|destruct p; [lia|discriminate]]. intros i Hi. apply in_seq in Hi. apply incr_nth; [exact H|lia].
    + intros x y Hx [<-|[]]. apply in_map_iff in Hx as (j & <- & Hj). apply in_seq in Hj. apply B; lia.
  - intros y Hy. apply in_app_iff in Hy as [Hy|[<-|[]]]; [|lra]. apply in_map_iff in Hy as (j & <- & Hj). apply in_seq in Hj. apply B; lia.
Qed.
Lemma incr_affine a b l : a < b -> incr l -> incr (affine a b l).
Proof.
  intros D. induction l as [|x l IH]; intros H; [constructor|]. apply incr_cons in H as [H1 H2]. cbn. apply incr_cons. split; [auto|].
  intros y Hy. apply in_map_iff in Hy as (z & <- & Hz). specialize (H2 _ Hz). nra.
Qed.
Lemma affine_repeat a b x n : affine a b (repeat x n) = repeat (a + x * (b - a)) n.
Proof. induction n; cbn; [auto|f_equal; auto]. Qed.
