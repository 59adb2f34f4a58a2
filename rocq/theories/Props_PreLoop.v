(** C138: load steps of benchmark_Wrinkling_DWR before the bifurcation *)
From Verif Require Import VS RunTac PreLoop.
Local Open Scope R_scope.

(** how many tries failed and converged *)
Definition count (b : bool) (t : list (R * bool)) : nat := length (filter (fun x => Bool.eqb (snd x) b) t).
Lemma count_snoc b t d r : count b (t ++ [(d, r)]) = (count b t + if Bool.eqb r b then 1 else 0)%nat.
Proof. unfold count. rewrite filter_app, app_length. cbn. destruct (Bool.eqb r b); reflexivity. Qed.

Section Pre.
Context {W : Type}.
Variables (try_ : R -> W -> W * bool) (reset : R -> W -> W) (stab : W -> W * bool) (accept : W -> W) (strain : W -> R) (lo hi : R) (maxSteps : nat).
Let main := preMain try_ reset stab accept strain lo hi maxSteps.
Let loop := preLoop try_ reset stab accept strain lo hi maxSteps.
(** every try has the initial length halved once for every failure before it *)
Definition halves (dL0 : R) (t : list (R * bool)) : Prop := forall l1 d r l2, t = l1 ++ (d, r) :: l2 -> d = dL0 / 2 ^ count false l1.
Record pinv (dL0 : R) (s : pst W) : Prop := {
  pv_k : p_k s = O; pv_uns : p_uns s = false; pv_dL : p_dL s = dL0 / 2 ^ count false (p_try s); pv_half : halves dL0 (p_try s);
  pv_n : length (p_rows s) = count true (p_try s); pv_eps : p_eps s = last (map snd (p_rows s)) 0;
  pv_idx : forall k e, In (k, e) (p_rows s) -> k = O; pv_in : forall l x r, p_rows s = l ++ x :: r -> r <> [] -> lo < snd x < hi;
  pv_try : p_try s <> [] -> lo < 0 < hi /\ (0 < maxSteps)%nat }.
Lemma halves_snoc dL0 t d r : halves dL0 t -> d = dL0 / 2 ^ count false t -> halves dL0 (t ++ [(d, r)]).
Proof.
  intros H E l1 d1 r1 l2 Q. destruct l2 as [|y l2] using rev_ind.
  - apply app_inj_tail in Q. destruct Q as [-> Q]. injection Q as <- _. exact E.
  - clear IHl2. rewrite app_comm_cons, app_assoc in Q. apply app_inj_tail in Q. destruct Q as [-> _]. eapply H. reflexivity.
Qed.
(** what holds at the end *)
Record preSpec (dL0 : R) (s : pst W) : Prop := {
  ps_dL : p_dL s = dL0 / 2 ^ count false (p_try s); ps_half : halves dL0 (p_try s);
  ps_n : count true (p_try s) = (length (p_rows s) + if p_uns s then 1 else 0)%nat;
  ps_eps : p_eps s = last (map snd (p_rows s)) 0;
  ps_idx : forall k e, In (k, e) (p_rows s) -> k = O; ps_in : forall l x r, p_rows s = l ++ x :: r -> r <> [] -> lo < snd x < hi;
  ps_try : p_try s <> [] -> lo < 0 < hi /\ (0 < maxSteps)%nat;
  ps_exit : if p_uns s then lo < p_eps s < hi /\ exists t d, p_try s = t ++ [(d, true)] else hi <= p_eps s \/ p_eps s <= lo \/ maxSteps = O }.
Lemma pre_guard (s : pst W) : Rltb (p_eps s) hi && Rltb lo (p_eps s) && (p_k s <? maxSteps)%nat = true <-> lo < p_eps s < hi /\ (p_k s < maxSteps)%nat.
Proof. rewrite !andb_true_iff, !Rltb_true, Nat.ltb_lt. tauto. Qed.
Lemma snoc_nil {A} (t : list A) x : t ++ [x] <> [].
Proof. destruct t; discriminate. Qed.
Lemma pinv_guard dL0 s : pinv dL0 s -> lo < p_eps s < hi -> (p_k s < maxSteps)%nat -> lo < 0 < hi /\ (0 < maxSteps)%nat.
Proof.
  intros [] G1 G2. destruct (p_try s) eqn:E; [|apply pv_try0; discriminate]. cbn in pv_n0. destruct (p_rows s); [|discriminate]. cbn in pv_eps0. split; [lra|lia].
Qed.
Lemma pinv_fail dL0 s w : pinv dL0 s -> lo < p_eps s < hi -> (p_k s < maxSteps)%nat ->
  pinv dL0 (mkP w (p_dL s / 2) (p_eps s) (p_k s) (p_uns s) (p_try s ++ [(p_dL s, false)]) (p_rows s)).
Proof.
  intros I G1 G2. pose proof (pinv_guard _ _ I G1 G2) as G. destruct I. constructor; cbn [p_w p_dL p_eps p_k p_uns p_try p_rows]; rewrite ?count_snoc; cbn [Bool.eqb]; auto.
  - rewrite pv_dL0, pow_add. field. apply pow_nonzero. lra.
  - apply halves_snoc; assumption.
  - lia.
Qed.
Lemma pinv_accept dL0 s w e : pinv dL0 s -> lo < p_eps s < hi -> (p_k s < maxSteps)%nat ->
  pinv dL0 (mkP w (p_dL s) e (p_k s) false (p_try s ++ [(p_dL s, true)]) (p_rows s ++ [(p_k s, e)])).
Proof.
  intros I G1 G2. pose proof (pinv_guard _ _ I G1 G2) as G. destruct I. constructor; cbn [p_w p_dL p_eps p_k p_uns p_try p_rows]; rewrite ?count_snoc; cbn [Bool.eqb]; rewrite ?Nat.add_0_r; auto.
  - apply halves_snoc; assumption.
  - rewrite app_length, pv_n0. reflexivity.
  - rewrite map_app. cbn. rewrite last_last. reflexivity.
  - intros k e' H. apply in_app_or in H. destruct H as [H|[H|[]]]; [eapply pv_idx0; exact H|congruence].
  - intros l x r E N. destruct r as [|y r _] using rev_ind; [contradiction|]. rewrite app_comm_cons, app_assoc in E. apply app_inj_tail in E. destruct E as [E _].
    destruct r as [|z r]; [|apply (pv_in0 l x (z :: r) E); discriminate]. rewrite pv_eps0, E, map_app in G1. cbn in G1. rewrite last_last in G1. exact G1.
Qed.
Lemma pre_spec dL0 fuel s s' : pinv dL0 s -> loop fuel s = Some s' -> preSpec dL0 s'.
Proof.
  revert s. induction fuel as [|fuel IH]; intros s I E; unfold loop in E; cbn [preLoop] in E; fold loop in E;
    destruct (Rltb (p_eps s) hi && Rltb lo (p_eps s) && (p_k s <? maxSteps)%nat) eqn:G; try discriminate.
  1, 3: injection E as <-; destruct I; constructor; auto; rewrite pv_uns0; [lia|]; rewrite !andb_false_iff, !Rltb_false, Nat.ltb_ge in G; destruct G as [[G|G]|G]; [auto|auto|right; right; lia].
  apply pre_guard in G. destruct G as [G1 G2]. destruct (try_ (p_dL s) (p_w s)) as [w [|]].
  - destruct (stab w) as [w1 [|]].
    + injection E as <-. pose proof (pinv_guard _ _ I G1 G2) as G. destruct I. constructor; cbn [p_w p_dL p_eps p_k p_uns p_try p_rows]; rewrite ?count_snoc; cbn [Bool.eqb]; rewrite ?Nat.add_0_r; auto.
      * apply halves_snoc; assumption.
      * split; [exact G1|eauto].
    + apply IH in E; [exact E|]. apply pinv_accept; assumption.
  - apply IH in E; [exact E|]. apply pinv_fail; assumption.
Qed.
Lemma pinv_init w dL : pinv dL (mkP w dL 0 0 false [] []).
Proof.
  constructor; cbn; auto; try tauto.
  - unfold count. cbn. field.
  - intros l1 d r l2 Q. destruct l1; discriminate.
  - intros [|? ?] x r Q; discriminate.
Qed.
(** C138: the loop ends only at the bifurcation or with a strain out of the limits *)
Theorem C138_rows_partial fuel w dL s : main fuel w dL = Some s -> preSpec dL s.
Proof. apply pre_spec. apply pinv_init. Qed.
(** C138: without a bifurcation and with bounded strains the loop does not end, whatever maxSteps > 0 *)
Theorem C138_refuted w dL : (0 < maxSteps)%nat -> lo < 0 < hi -> (forall w, snd (stab w) = false) -> (forall w, lo < strain w < hi) -> forall fuel, main fuel w dL = None.
Proof.
  intros M Z HS HE. assert (I : forall fuel s, p_k s = O -> lo < p_eps s < hi -> loop fuel s = None).
  { induction fuel as [|fuel IH]; intros s K E; unfold loop; cbn [preLoop]; fold loop; (destruct (Rltb (p_eps s) hi && Rltb lo (p_eps s) && (p_k s <? maxSteps)%nat) eqn:G; [|rewrite (proj2 (pre_guard s)) in G; [discriminate|split; [exact E|lia]]]).
    - reflexivity.
    - destruct (try_ (p_dL s) (p_w s)) as [v [|]]; [|apply IH; [exact K|exact E]]. pose proof (HS v) as Q. destruct (stab v) as [v1 u]. cbn in Q. subst u. apply IH; cbn; auto. }
  intros fuel. apply I; cbn; auto.
Qed.
(** the states before the passes of a run *)
Inductive preach (w0 : W) (dL : R) : pst W -> Prop :=
  | preach_0 : preach w0 dL (mkP w0 dL 0 0 false [] [])
  | preach_fail s v : preach w0 dL s -> try_ (p_dL s) (p_w s) = (v, false) ->
      preach w0 dL (mkP (reset (p_dL s / 2) v) (p_dL s / 2) (p_eps s) (p_k s) (p_uns s) (p_try s ++ [(p_dL s, false)]) (p_rows s))
  | preach_acc s v v1 : preach w0 dL s -> try_ (p_dL s) (p_w s) = (v, true) -> stab v = (v1, false) ->
      preach w0 dL (mkP (accept v1) (p_dL s) (strain (accept v1)) (p_k s) false (p_try s ++ [(p_dL s, true)]) (p_rows s ++ [(p_k s, strain (accept v1))])).
(** C138: the loop ends if every accepted step adds at least g to the strain (or leaves the limits) and steps of small lengths converge *)
Theorem C138_terminates eps g m n w dL : 0 < dL -> 0 < g -> (forall d w, 0 < d <= eps -> snd (try_ d w) = true) -> dL / 2 ^ m <= eps -> hi <= INR n * g ->
  (forall s v v1, preach w dL s -> try_ (p_dL s) (p_w s) = (v, true) -> stab v = (v1, false) -> p_eps s + g <= strain (accept v1)) ->
  exists s, main (n + m) w dL = Some s.
Proof.
  intros P PG H M N HE.
  assert (I : forall fuel s, preach w dL s -> pinv dL s -> INR (length (p_rows s)) * g <= p_eps s -> (count false (p_try s) <= m)%nat -> (n + m <= fuel + length (p_rows s) + count false (p_try s))%nat -> exists s', loop fuel s = Some s').
  { induction fuel as [|fuel IH]; intros s PR I E C L; unfold loop; cbn [preLoop]; fold loop; (destruct (Rltb (p_eps s) hi && Rltb lo (p_eps s) && (p_k s <? maxSteps)%nat) eqn:G; [|eauto]); apply pre_guard in G; destruct G as [G1 G2].
    - exfalso. assert (LE : (n <= length (p_rows s))%nat) by lia. apply le_INR in LE. apply (Rmult_le_compat_r g) in LE; lra.
    - destruct (try_ (p_dL s) (p_w s)) as [v ok] eqn:ET. destruct ok.
      + destruct (stab v) as [v1 [|]] eqn:EV; [eauto|]. specialize (HE s v v1 PR ET EV). apply IH; cbn [p_rows p_eps p_try].
        * apply (preach_acc w dL s v v1); assumption.
        * apply pinv_accept; assumption.
        * rewrite app_length. cbn [length]. rewrite plus_INR. cbn [INR]. lra.
        * rewrite count_snoc. cbn. lia.
        * rewrite app_length, count_snoc. cbn. lia.
      + assert (CL : (count false (p_try s) < m)%nat).
        { destruct (le_lt_dec m (count false (p_try s))) as [Q|Q]; [|exact Q]. exfalso. assert (EM : count false (p_try s) = m) by lia.
          assert (X : snd (try_ (p_dL s) (p_w s)) = true); [|rewrite ET in X; discriminate]. apply H. rewrite (pv_dL _ _ I), EM. split; [apply Rdiv_lt_0_compat; [exact P|apply pow_lt; lra]|exact M]. }
        apply IH; cbn [p_rows p_eps p_try].
        * apply (preach_fail w dL s v); assumption.
        * apply pinv_fail; assumption.
        * exact E.
        * rewrite count_snoc. cbn. lia.
        * rewrite count_snoc. cbn. lia. }
  apply I; cbn; [constructor|apply pinv_init|lra|unfold count; cbn; lia|unfold count; cbn; lia].
Qed.
End Pre.
(** C138: the run does not depend on maxSteps, as long as it is positive *)
Theorem C138_steps_refuted {W : Type} (try_ : R -> W -> W * bool) (reset : R -> W -> W) (stab : W -> W * bool) (accept : W -> W) (strain : W -> R) (lo hi : R) (a b : nat) fuel w dL :
  (0 < a)%nat -> (0 < b)%nat -> preMain try_ reset stab accept strain lo hi a fuel w dL = preMain try_ reset stab accept strain lo hi b fuel w dL.
Proof.
  intros A B.
  assert (I : forall fuel s, p_k s = O -> preLoop try_ reset stab accept strain lo hi a fuel s = preLoop try_ reset stab accept strain lo hi b fuel s).
  { clear fuel. induction fuel as [|fuel IH]; intros s K; cbn [preLoop]; rewrite K;
      replace (0 <? a)%nat with true by (symmetry; apply Nat.ltb_lt; exact A); replace (0 <? b)%nat with true by (symmetry; apply Nat.ltb_lt; exact B); [reflexivity|].
    destruct (Rltb (p_eps s) hi && Rltb lo (p_eps s) && true); [|reflexivity]. destruct (try_ (p_dL s) (p_w s)) as [v [|]]; [|apply IH; reflexivity].
    destruct (stab v) as [v1 [|]]; [reflexivity|apply IH; reflexivity]. }
  apply I. reflexivity.
Qed.
Print Assumptions C138_steps_refuted.
Print Assumptions C138_rows_partial.
Print Assumptions C138_refuted.
Print Assumptions C138_terminates.

(** a program: the steps of length above 1 fail, a step adds its length to the strain; unstable from a given strain on. With maxSteps = 1
    two rows are written, both with the index 0 *)
Definition kTry (d w : R) : R * bool := if Rleb d 1 then (w + d, true) else (w, false).
Example C138_example : match preMain kTry (fun _ w => w) (fun w => (w, Rleb 3 w)) (fun w => w) (fun w => w / 10) (-1) 1 1 4 0 2 with
  | Some s => p_rows s = [(0%nat, 1 / 10); (0%nat, 1 / 5)] /\ p_uns s = true /\ p_dL s = 1 | None => False end.
Proof. rsimp. repeat split; lra. Qed.
(** strains that stay: one step asked for, no end *)
Example C138_refuted_case fuel : preMain kTry (fun _ w => w) (fun w => (w, false)) (fun w => w) (fun _ => / 2) (-1) 1 1 fuel 0 2 = None.
Proof. apply C138_refuted; [lia|lra|reflexivity|intros _; lra]. Qed.
Example C138_terminates_case : exists s, preMain kTry (fun _ w => w) (fun w => (w, false)) (fun w => w) (fun w => w / 10) (-1) 1 50 (10 + 1) 0 2 = Some s.
Proof.
  apply (C138_terminates kTry _ _ _ _ (-1) 1 50 1 (1 / 10) 1 10 0 2); [lra|lra| |lra|cbn; lra|].
  - intros d w H. unfold kTry. replace (Rleb d 1) with true by (symmetry; apply Rleb_true; lra). reflexivity.
  - intros s v v1 PR T V. injection V as <-.
    assert (Q : p_eps s = p_w s / 10 /\ (p_dL s = 2 \/ p_dL s = 1)).
    { clear T. induction PR as [|s v' PR IH E|s v' v2 PR IH E EV]; cbn; [split; [lra|auto]| |]; destruct IH as [I1 I2]; unfold kTry in E.
      - destruct (Rleb (p_dL s) 1) eqn:B; [discriminate|]. injection E as <-. apply Rleb_false in B. split; [exact I1|right; lra].
      - split; [reflexivity|]. destruct (Rleb (p_dL s) 1) eqn:B; [|discriminate]. apply Rleb_true in B. right. lra. }
    destruct Q as [Q1 Q2]. unfold kTry in T. destruct (Rleb (p_dL s) 1) eqn:B; [|discriminate]. injection T as <-. apply Rleb_true in B. rewrite Q1. lra.
Qed.
