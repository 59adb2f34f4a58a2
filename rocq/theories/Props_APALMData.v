(** Properties C01-C12 of the book-keeping class gsAPALMData. *)
From Verif Require Import Prelude APALMData APALMDataProofs APALMDataInv APALMSpec APALMHist APALMDataEx.
Local Open Scope R_scope.

(** ** C01: waiting and handed-out correction segments are neighbouring pairs of stored
    times and never overlap. [reachable]: created and then any allowed history. *)
Theorem C01_segments_never_overlap :
  forall (sol : Type) (d : data sol), reachable d ->
  (forall e, In e (waiting d ++ handedOut d) -> correction e ->
     neighbours (times d) (fst (segTimes d e)) (snd (segTimes d e)) /\
     fst (segTimes d e) < snd (segTimes d e)) /\
  (forall i j e e', i <> j ->
     nth_error (waiting d ++ handedOut d) i = Some e ->
     nth_error (waiting d ++ handedOut d) j = Some e' ->
     correction e -> correction e' ->
     snd (segTimes d e) <= fst (segTimes d e') \/ snd (segTimes d e') <= fst (segTimes d e)).
Proof.
  intros sol d H. destruct (reachable_inv d H) as (c & I). split.
  - intros e H1 H2. pose proof (seg_neighbours d c e I H1 H2) as N. split; auto.
    apply (Adj_lt (times d)); [eapply times_incr; eauto|apply Adj_neighbours; auto].
  - intros i j e e' Hij H1 H2 H3 H4. exact (seg_disjoint d c i j e e' I Hij H1 H2 H3 H4).
Qed.
Print Assumptions C01_segments_never_overlap.

(** the same for two active jobs, through jobTimes *)
Theorem C01_active_jobs_disjoint :
  forall (sol : Type) (d : data sol) id id' e e', reachable d ->
  active d id e -> active d id' e' -> id <> id' -> correction e -> correction e' ->
  let '(l, u) := snd (jobTimes d id) in
  let '(l', u') := snd (jobTimes d id') in
  l < u /\ l' < u' /\ (u <= l' \/ u' <= l).
Proof.
  intros sol d id id' e e' H A A' Hn C C'. destruct (reachable_inv d H) as (c & I).
  rewrite (jobTimes_val _ _ _ _ I A), (jobTimes_val _ _ _ _ I A').
  destruct (C01_segments_never_overlap sol d H) as [H1 H2].
  assert (In1 : forall id e, active d id e -> In e (waiting d ++ handedOut d)).
  { intros i x Hx. apply in_or_app; right. apply (in_map snd _ (i, x)). exact Hx. }
  destruct (H1 e (In1 _ _ A) C) as [_ L1]. destruct (H1 e' (In1 _ _ A') C') as [_ L2].
  unfold segTimes in *. cbn in *. split; [auto|]. split; [auto|].
  apply In_nth_error in A as [i Hi]. apply In_nth_error in A' as [j Hj].
  assert (i <> j) by (intros ->; rewrite Hi in Hj; injection Hj; congruence).
  apply (H2 (length (waiting d) + i)%nat (length (waiting d) + j)%nat e e'); auto; [lia|..];
  rewrite nth_error_app2 by lia; rewrite Nat.add_comm, Nat.add_sub; unfold handedOut.
  - exact (map_nth_error snd _ _ Hi).
  - exact (map_nth_error snd _ _ Hj).
Qed.
Print Assumptions C01_active_jobs_disjoint.

Example C01_example : exists (d : data nat) e e',
  reachable d /\ active d 0 e /\ active d 1 e' /\ correction e /\ correction e' /\
  nth_error (waiting d ++ handedOut d) 0 = Some e /\ nth_error (waiting d ++ handedOut d) 1 = Some e'.
Proof.
  destruct ex_history as (d0 & d1 & d2 & e0 & e1 & Hc & _ & _ & Hh & _ & J & L0 & T0 & L1 & T1 & Wt & _).
  exists d2, e0, e1. unfold active, correction, handedOut. rewrite Wt, J, L0, L1.
  split; [exists 3%Z, (1/10), d0; eauto|]. repeat split; cbn; auto; lia.
Qed.

(** ** C02: the exported curve is ordered and complete *)
Theorem C02_export_ordered_complete :
  forall (sol : Type) (d : data sol), reachable d ->
  length (times d) = length (d_xi d) /\
  length (sols d) = length (times d) /\ length (levels d) = length (times d) /\
  incr (times d) /\
  (forall k x, nth_error (d_xi d) k = Some x ->
     nth_error (times d) k = Some (timeAt d x) /\
     nth_error (sols d) k = snd (getReferenceByPar d x)) /\
  (forall l, (0 <= l)%Z ->
     snd (getFlatSolution d l) =
     let f := filter (fun x => (snd x =? l)%Z) (combine (combine (times d) (sols d)) (levels d)) in
     (map (fun x => fst (fst x)) f, map (fun x => snd (fst x)) f, map snd f)).
Proof.
  intros sol d H. destruct (reachable_inv d H) as (c & I). pose proof (inv_rep _ _ I) as HR.
  pose proof HR as (R1&R2&R3&R4&R5&R6&R7&R8).
  rewrite (times_eq _ _ HR), (sols_eq _ _ HR), (levels_eq _ _ HR), R1, !map_length.
  do 3 (split; [reflexivity|]). split; [auto|]. split.
  - intros k x Hk. rewrite nth_error_map in Hk.
    destruct (nth_error c k) as [p|] eqn:E; [|discriminate]. injection Hk as <-.
    pose proof (nth_error_In _ _ E) as Hp. rewrite !nth_error_map, E. cbn.
    rewrite (timeAt_val _ _ _ HR Hp), R3, (rfind_map_in c ps p R6 Hp). auto.
  - intros l Hl. destruct (flat_spec d c l HR) as [_ ->].
    assert (E : combine (combine (map pt c) (map ps c)) (map pl c) = map (fun p => (pt p, ps p, pl p)) c).
    { clear. induction c as [|p c IH]; cbn; congruence. }
    rewrite E.
    assert (F : filter (fun x => (snd x =? l)%Z) (map (fun p => (pt p, ps p, pl p)) c) =
                map (fun p => (pt p, ps p, pl p)) (filter (keep l) c)).
    { clear -Hl. induction c as [|p c IH]; cbn; auto. unfold keep at 1.
      replace (l =? -1)%Z with false by (symmetry; apply Z.eqb_neq; lia). rewrite orb_false_r.
      destruct (pl p =? l)%Z; cbn; congruence. }
    rewrite F. cbv zeta. rewrite !map_map. reflexivity.
Qed.
Print Assumptions C02_export_ordered_complete.

Example C02_example : exists d : data nat, reachable d /\ times d = [0; 1; 2] /\ sols d = [10; 11; 12]%nat.
Proof.
  destruct ex_history as (d0 & d1 & d2 & e0 & e1 & Hc & _ & _ & Hh & _ & _ & _ & _ & _ & _ & _ & _ & _ & _ & _ & T & S).
  exists d2. split; [exists 3%Z, (1/10), d0; eauto|auto].
Qed.

(** ** C03: submit keeps all points, in order, with solutions and levels, and inserts the
    submitted solutions in order between the ends of the job *)
Theorem C03_submit_keeps_solutions :
  forall (sol : Type) (d d' : data sol) id e ds ss up lo,
  reachable d -> active d id e -> correction e ->
  length ds = S (length ss) -> Forall (fun x => 0 < x) ds ->
  submit d id ds ss up lo = Ok d' ->
  exists k tl th,
    snd (jobTimes d id) = (tl, th) /\
    nth_error (times d) k = Some tl /\ nth_error (times d) (S k) = Some th /\
    sols d' = firstn (S k) (sols d) ++ ss ++ skipn (S k) (sols d) /\
    levels d' = firstn (S k) (levels d) ++ repeat (seg_lev e) (length ss) ++ skipn (S k) (levels d) /\
    incr (times d').
Proof.
  intros sol d d' id e ds ss up lo H A C L P Hs. destruct (reachable_inv d H) as (c & I).
  destruct (submit_export d c id e ds ss up lo d' I A C (conj L P) Hs)
    as (k & tl & th & H1 & H2 & H3 & H4 & H5 & H6 & H7 & H8).
  exists k, tl, th. repeat split; auto.
Qed.
Print Assumptions C03_submit_keeps_solutions.

(** submit accepts a result exactly when the inner distances reach the segment length *)
Theorem C03_submit_accepts :
  forall (sol : Type) (d : data sol) id e ds ss up lo,
  reachable d -> active d id e -> correction e ->
  length ds = S (length ss) -> Forall (fun x => 0 < x) ds ->
  (exists d', submit d id ds ss up lo = Ok d') <->
  (let '(tl, th) := snd (jobTimes d id) in (th - tl - Rsum (removelast ds)) / (th - tl) < 1 / 10 ^ 12).
Proof.
  intros sol d id e ds ss up lo H A C L P. destruct (reachable_inv d H) as (c & I).
  exact (submit_accepts d c id e ds ss up lo I A C (conj L P)).
Qed.
Print Assumptions C03_submit_accepts.

Example C03_example : exists (d d' : data nat) e ds ss up lo,
  reachable d /\ active d 0 e /\ correction e /\ length ds = S (length ss) /\ Forall (fun x => 0 < x) ds /\
  ss = [20; 21]%nat /\ submit d 0 ds ss up lo = Ok d'.
Proof.
  destruct ex_submit as (d & d' & e & H1 & H2 & H3 & H4 & H5 & HT & H6 & H7 & H8 & H9).
  exists d, d', e, [1/2; 1/2; 1/4], [20; 21]%nat, (1/2), (3/4). repeat split; auto.
Qed.

(** ** C04: only the length of the submitted segment changes *)
Theorem C04_submit_changes_one_length :
  forall (sol : Type) (d d' : data sol) id e ds ss up lo,
  reachable d -> active d id e -> correction e ->
  length ds = S (length ss) -> Forall (fun x => 0 < x) ds ->
  submit d id ds ss up lo = Ok d' ->
  exists k tl th,
    snd (jobTimes d id) = (tl, th) /\
    nth_error (times d) k = Some tl /\ nth_error (times d) (S k) = Some th /\
    firstn (S k) (times d') = firstn (S k) (times d) /\
    gaps (times d') = firstn k (gaps (times d)) ++ ds ++ skipn (S k) (gaps (times d)).
Proof.
  intros sol d d' id e ds ss up lo H A C L P Hs. destruct (reachable_inv d H) as (c & I).
  destruct (submit_export d c id e ds ss up lo d' I A C (conj L P) Hs)
    as (k & tl & th & H1 & H2 & H3 & H4 & H5 & H6 & H7 & H8).
  exists k, tl, th. repeat split; auto.
Qed.
Print Assumptions C04_submit_changes_one_length.
(** non-vacuous: C03_example *)
Example C04_example : gaps [0; 1/2; 1; 5/4; 9/4] = [1/2 - 0; 1 - 1/2; 5/4 - 1; 9/4 - 5/4].
Proof. reflexivity. Qed.

(** ** C05: what pop returned still describes the job when it is submitted *)
Theorem C05_job_data_stays_valid :
  forall (sol : Type) ml tol (d0 d : data sol) h1 id dt start prev h2 e,
  created ml tol d0 -> history d0 (h1 ++ (CPop, OPop id dt start prev) :: h2) d ->
  active d id e ->
  (exists k, nth_error (times d) k = Some (timeAt d (seg_lo e)) /\ nth_error (sols d) k = Some start) /\
  rfind (seg_lo e) (d_prevs d) = Some prev /\
  (correction e -> timeAt d (seg_hi e) - timeAt d (seg_lo e) = dt).
Proof.
  intros sol ml tol d0 d h1 id dt start prev h2 e Hc Hh A.
  destruct (popped_job_valid d0 h1 id dt start prev h2 d (created_inv _ _ _ Hc) Hh e A) as (_ & H1 & H2 & H3).
  auto.
Qed.
Print Assumptions C05_job_data_stays_valid.

Example C05_example : exists (d0 d : data nat) e,
  created 3 (1/10) d0 /\
  history d0 ([] ++ (CPop, OPop 0 1 10 10) :: [(CPop, OPop 1 1 11 10)])%nat d /\ active d 0 e /\ correction e.
Proof.
  destruct ex_history as (d0 & d1 & d2 & e0 & e1 & Hc & _ & _ & Hh & _ & J & L0 & _).
  exists d0, d2, e0. unfold active, correction. rewrite J, L0. repeat split; auto; [left; auto|lia].
Qed.

(** ** C06: identifiers are never reused: pop counts 0,1,2,... *)
Theorem C06_ids_never_reused :
  forall (sol : Type) ml tol (d0 d : data sol) h,
  created ml tol d0 -> history d0 h d ->
  NoDup (poppedIDs h) /\ poppedIDs h = seq 0 (length (poppedIDs h)).
Proof.
  intros sol ml tol d0 d h Hc Hh.
  assert (E0 : d_ID d0 = 0%nat).
  { destruct Hc as [ts ss d0 A B C|s p d0 A].
    - destruct (created_data_inv _ _ _ _ _ A B C) as (c & _ & _ & _ & _ & _ & _ & E & _). auto.
    - destruct (created_start_inv _ _ _ _ _ A) as (_ & _ & _ & E & _). auto. }
  destruct (history_ids d0 h d Hh (created_inv _ _ _ Hc)) as (E & _). rewrite E0 in E.
  split; auto. rewrite E. apply seq_NoDup.
Qed.
Print Assumptions C06_ids_never_reused.
Example C06_example : exists (d0 d : data nat) h,
  created 3 (1/10) d0 /\ history d0 h d /\ poppedIDs h = [0; 1]%nat.
Proof.
  destruct ex_history as (d0 & d1 & d2 & e0 & e1 & Hc & _ & _ & Hh & _).
  exists d0, d2. eexists. split; [exact Hc|]. split; [exact Hh|reflexivity].
Qed.

(** ** C07: levels stay below MaxLevel *)
Theorem C07_levels_bounded :
  forall (sol : Type) MaxLevel tol (d0 d : data sol) h,
  created MaxLevel tol d0 -> history d0 h d ->
  Forall (fun e => (0 <= seg_lev e <= Z.max 1 MaxLevel)%Z) (waiting d ++ handedOut d) /\
  Forall (fun l => (0 <= l <= Z.max 1 MaxLevel)%Z) (levels d).
Proof.
  intros sol ml tol d0 d h Hc Hh. pose proof (created_inv _ _ _ Hc) as H0.
  destruct (history_inv _ _ _ Hh H0) as (c & I).
  assert (E0 : d_optMaxLevel d0 = ml).
  { destruct Hc as [ts ss d0 A B C|s p d0 A].
    - destruct (created_data_inv _ _ _ _ _ A B C) as (c0 & _ & _ & _ & _ & E & _). auto.
    - destruct (created_start_inv _ _ _ _ _ A) as (_ & E & _). auto. }
  destruct (history_ids d0 h d Hh H0) as (_ & _ & E & _).
  destruct (inv_opt _ _ I) as [E2 _]. split.
  - pose proof (inv_entries _ _ I) as He. unfold entries in He. eapply Forall_impl; [|exact He].
    intros e [(A & _)|(A & _)]; [lia|]. rewrite E2, E, E0 in A. lia.
  - rewrite (levels_eq _ _ (inv_rep _ _ I)), Forall_map. eapply Forall_impl; [|exact (inv_levels _ _ I)].
    intros p Hp. cbn in Hp. rewrite E2, E, E0 in Hp. exact Hp.
Qed.
Print Assumptions C07_levels_bounded.
(** non-vacuous: C06_example; levels above 1 occur: *)
Lemma ex_all_three : exists (d d' : data nat) e new, reachable d /\ active d 0 e /\ correction e /\
  length [1/2; 1/2; 1/4] = S (length [20; 21]%nat) /\ Forall (fun x => 0 < x) [1/2; 1/2; 1/4] /\
  submit d 0 [1/2; 1/2; 1/4] [20; 21]%nat (1/2) (3/4) = Ok d' /\
  waiting d' = waiting d ++ new /\ length new = 3%nat /\ Forall (fun e' => seg_lev e' = 2%Z) new.
Proof.
  destruct ex_submit as (d & d' & e & H1 & H2 & H3 & H4 & H5 & HT & H6 & H7 & H8 & H9).
  destruct (reachable_inv _ H1) as (c & I).
  destruct (submit_queue d c 0 e [1/2;1/2;1/4] [20;21]%nat (1/2) (3/4) d' I H2 H3 (conj H7 H8) H9)
    as (tl & th & new & J & Q & F & M).
  rewrite H6 in J. injection J as <- <-.
  exists d, d', e, new. do 7 (split; [auto|]). split.
  - rewrite <- (map_length (segTimes d')), M. cbv zeta. rewrite H4, H5, HT.
    rewrite (proj2 (Rltb_false ((1 - 0 - 3/4) / (1 - 0)) (1/10))) by lra.
    rewrite !Rsum_cons, Rsum_nil.
    rewrite (proj2 (Rltb_false ((1/2 + (1/2 + (1/4 + 0)) - 1/2 - (1 - 0 - 3/4)) / (1 - 0)) (1/10))) by lra.
    reflexivity.
  - rewrite H4 in F. exact F.
Qed.
Example C07_example : exists (d d' : data nat) e, reachable d /\
  exec d (CComplete 0 [1/2; 1/2; 1/4] [20; 21]%nat (1/2) (3/4)) = Ok (d', ONone) /\
  In e (waiting d') /\ seg_lev e = 2%Z.
Proof.
  destruct ex_all_three as (d & d' & e & new & H1 & H2 & H3 & H4 & H5 & H6 & H7 & H8 & H9).
  destruct new as [|e' new]; [discriminate|].
  exists d, (finishJob d' 0), e'. split; [exact H1|]. split; [cbn [exec]; rewrite H6; reflexivity|].
  unfold waiting, finishJob in *. cbn. rewrite H7. split; [apply in_or_app; right; left; auto|].
  inversion H9; auto.
Qed.

(** ** C08: refinement terminates. If no correction returns more than b solutions, the
    number of jobs handed out is bounded. corrections n b = 1 + (b+1) + ... + (b+1)^(n-1). *)
Fixpoint geometric (q n : nat) : nat := match n with O => 0 | S m => geometric q m + q ^ m end%nat.
Definition bounded_results {sol} (b : nat) (x : @call sol * @out sol) : Prop :=
  match fst x with CComplete _ _ ss _ _ => (length ss <= b)%nat | CInit => False | _ => True end.
Definition nAppendData {sol} (h : list (@call sol * @out sol)) : nat :=
  length (filter (fun x => match fst x with CAppendData _ _ _ => true | _ => false end) h).
Definition nAppendPoint {sol} (h : list (@call sol * @out sol)) : nat :=
  length (filter (fun x => match fst x with CAppendPoint _ => true | _ => false end) h).

Lemma geometric_W b n : W b n = geometric (S b) n.
Proof.
  assert (G : forall n, (geometric (S b) (S n) = 1 + S b * geometric (S b) n)%nat).
  { clear. intros n. induction n as [|n IH]; [cbn; lia|].
    change (geometric (S b) (S (S n))) with (geometric (S b) (S n) + S b ^ S n)%nat.
    rewrite IH at 1. change (geometric (S b) (S n)) with (geometric (S b) n + S b ^ n)%nat.
    rewrite Nat.mul_add_distr_l. change (S b ^ S n)%nat with (S b * S b ^ n)%nat. lia. }
  induction n as [|n IH]; [reflexivity|]. rewrite G, <- IH. reflexivity.
Qed.

Lemma cost_sum {sol} b ml (h : list (@call sol * @out sol)) :
  sum (map (fun x => cost b ml (fst x)) h) =
  (nAppendData h * W b (left_levels ml 1) + nAppendPoint h)%nat.
Proof.
  unfold sum, nAppendData, nAppendPoint. induction h as [|[k o] h IH]; [reflexivity|].
  cbn [map fold_right fst filter]. rewrite IH. destruct k; cbn [cost length]; lia.
Qed.

Lemma C08_gen (sol : Type) MaxLevel tol (d0 d : data sol) h b :
  created MaxLevel tol d0 -> history d0 h d -> Forall (bounded_results b) h ->
  (length (poppedIDs h) <= measure b d0 + nAppendData h * W b (left_levels MaxLevel 1) + nAppendPoint h)%nat.
Proof.
  intros Hc Hh Hb. pose proof (created_inv _ _ _ Hc) as H0.
  assert (Hs : Forall (fun x => small b (fst x)) h).
  { eapply Forall_impl; [|exact Hb]. intros [k o]. destruct k; cbn; auto. }
  destruct (history_measure b d0 h d Hh H0 Hs) as [M _].
  assert (E0 : d_maxLevel d0 = MaxLevel).
  { destruct H0 as (c0 & I0). destruct (inv_opt _ _ I0) as [-> _].
    destruct Hc as [ts ss d0 A B C|s p d0 A].
    - destruct (created_data_inv _ _ _ _ _ A B C) as (c1 & _ & _ & _ & _ & E & _). auto.
    - destruct (created_start_inv _ _ _ _ _ A) as (_ & E & _). auto. }
  rewrite cost_sum, E0 in M. lia.
Qed.

Theorem C08_refinement_terminates :
  forall (sol : Type) MaxLevel tol (d0 d : data sol) ts ss h b,
  incr ts -> length ts = length ss -> initWith (newData MaxLevel tol) ts ss = Ok d0 ->
  history d0 h d -> Forall (bounded_results b) h ->
  (length (poppedIDs h) <=
   (length ts - 1 + nAppendData h) * geometric (b + 1) (Z.to_nat (Z.max 1 MaxLevel)) + nAppendPoint h)%nat.
Proof.
  intros sol ml tol d0 d ts ss h b Hi Hl Hd Hh Hb.
  pose proof (C08_gen sol ml tol d0 d h b (cr_data _ _ _ _ _ Hi Hl Hd) Hh Hb) as M.
  destruct (created_data_inv _ _ _ _ _ Hi Hl Hd) as (c & I & Et & _ & _ & O1 & _ & _ & Ej & Eq & _).
  destruct (inv_opt _ _ I) as [O2 _].
  assert (Em : (measure b d0 <= (length ts - 1) * W b (left_levels ml 1))%nat).
  { unfold measure. rewrite Ej, Eq, O2, O1. cbn [map sum fold_right]. rewrite Nat.add_0_r.
    etransitivity; [apply (sum_le _ _ (W b (left_levels ml 1)))|].
    - intros x Hx. apply in_map_iff in Hx as (y & <- & _). cbn. lia.
    - rewrite map_length, consecutive_length, map_length, <- Et, map_length. lia. }
  replace (b + 1)%nat with (S b) by lia. rewrite <- geometric_W.
  replace (Z.to_nat (Z.max 1 ml)) with (left_levels ml 1) by (unfold left_levels; lia). nia.
Qed.
Print Assumptions C08_refinement_terminates.

(** the same for a data set that starts from a single point *)
Theorem C08_refinement_terminates_start :
  forall (sol : Type) MaxLevel tol (d0 d : data sol) s prio h b,
  addStartPoint (newData MaxLevel tol) 0 s prio = Ok d0 ->
  history d0 h d -> Forall (bounded_results b) h ->
  (length (poppedIDs h) <=
   nAppendData h * geometric (b + 1) (Z.to_nat (Z.max 1 MaxLevel)) + nAppendPoint h + 1)%nat.
Proof.
  intros sol ml tol d0 d s prio h b Hd Hh Hb.
  pose proof (C08_gen sol ml tol d0 d h b (cr_start _ _ _ _ _ Hd) Hh Hb) as M.
  destruct (created_start_inv _ _ _ _ _ Hd) as (I & O1 & _ & _ & Ej & Eq).
  assert (Em : measure b d0 = 1%nat).
  { unfold measure. rewrite Ej, Eq. reflexivity. }
  replace (b + 1)%nat with (S b) by lia. rewrite <- geometric_W.
  replace (Z.to_nat (Z.max 1 ml)) with (left_levels ml 1) by (unfold left_levels; lia). lia.
Qed.
Print Assumptions C08_refinement_terminates_start.
Example C08_example : exists (d0 d : data nat) h,
  initWith (newData 3 (1/10)) [0; 1; 2] [10; 11; 12]%nat = Ok d0 /\ history d0 h d /\
  Forall (bounded_results 2) h /\ poppedIDs h = [0; 1]%nat /\
  geometric 3 3 = 13%nat.
Proof.
  destruct ex_history0 as (d0 & d2 & E & H).
  exists d0, d2. eexists. split; [exact E|]. split; [exact H|]. split; [repeat constructor|]. split; reflexivity.
Qed.

(** ** C09: the error indicators decide which sub-segments are refined *)
Theorem C09_errors_decide_refinement :
  forall (sol : Type) (d d' : data sol) id e ds ss upperDistance lowerDistance,
  reachable d -> active d id e -> correction e ->
  length ds = S (length ss) -> Forall (fun x => 0 < x) ds ->
  submit d id ds ss upperDistance lowerDistance = Ok d' ->
  exists tl th new,
    snd (jobTimes d id) = (tl, th) /\
    waiting d' = waiting d ++ new /\
    Forall (fun e' => seg_lev e' = (seg_lev e + 1)%Z) new /\
    let subs := neighbourPairs (runningSums tl ds) in
    let lowerError := th - tl - lowerDistance in
    let upperError := Rsum ds - upperDistance - lowerError in
    ((d_optMaxLevel d <= seg_lev e)%Z -> new = []) /\
    ((seg_lev e < d_optMaxLevel d)%Z ->
      (d_optTol d <= lowerError / (th - tl) -> d_optTol d <= upperError / (th - tl) ->
        map (segTimes d') new = subs) /\
      (lowerError / (th - tl) < d_optTol d -> d_optTol d <= upperError / (th - tl) ->
        map (segTimes d') new = [last subs (0, 0)]) /\
      (d_optTol d <= lowerError / (th - tl) -> upperError / (th - tl) < d_optTol d ->
        map (segTimes d') new = removelast subs) /\
      (lowerError / (th - tl) < d_optTol d -> upperError / (th - tl) < d_optTol d -> new = [])).
Proof.
  intros sol d d' id e ds ss up lo H A C L P Hs. destruct (reachable_inv d H) as (c & I).
  destruct (submit_queue d c id e ds ss up lo d' I A C (conj L P) Hs) as (tl & th & new & J & Q & F & M).
  exists tl, th, new. do 3 (split; [auto|]). destruct (inv_opt _ _ I) as [O1 O2]. rewrite O1, O2 in M.
  cbv zeta in *.
  assert (Nil : map (segTimes d') new = [] -> new = []) by (destruct new; auto; discriminate).
  split.
  - intros Hle. apply Nil. rewrite M. replace (seg_lev e <? d_optMaxLevel d)%Z with false; auto.
    symmetry; apply Z.ltb_ge; auto.
  - intros Hlt. apply Z.ltb_lt in Hlt. rewrite Hlt in M.
    repeat split; intros A1 A2; [rewrite M|rewrite M|rewrite M|apply Nil; rewrite M];
    repeat match goal with
    | H : ?x < ?y |- context [Rltb ?x ?y] => rewrite (proj2 (Rltb_true x y) H)
    | H : ?y <= ?x |- context [Rltb ?x ?y] => rewrite (proj2 (Rltb_false x y) H)
    end; reflexivity.
Qed.
Print Assumptions C09_errors_decide_refinement.
Example C09_example : exists (d d' : data nat) e new, reachable d /\ active d 0 e /\ correction e /\
  submit d 0 [1/2; 1/2; 1/4] [20; 21]%nat (1/2) (3/4) = Ok d' /\
  waiting d' = waiting d ++ new /\ length new = 3%nat.
Proof.
  destruct ex_all_three as (d & d' & e & new & H1 & H2 & H3 & H4 & H5 & H6 & H7 & H8 & H9).
  exists d, d', e, new. repeat split; auto.
Qed.

(** ** C10: look-up by time. Refuted: an unknown time is reported as found, always with the
    first solution of the curve. *)
Theorem C10_unknown_time_reports_first_point :
  forall (sol : Type) (d : data sol) t, reachable d -> ~ In t (times d) ->
  exists s, snd (getReferenceByTime d t) = Some s /\ nth_error (sols d) 0 = Some s.
Proof.
  intros sol d t H Hn. destruct (reachable_inv d H) as (c & I).
  pose proof (inv_rep _ _ I) as HR. pose proof HR as (R1&R2&R3&R4&R5&R6&R7&R8).
  rewrite (times_eq _ _ HR) in Hn. rewrite (sols_eq _ _ HR).
  destruct (inv_ximap _ _ I) as [_ Hx]. specialize (Hx t Hn). unfold tval in Hx.
  unfold getReferenceByTime. destruct (rread 0 t (d_ximap d)) as [x xm]. cbn in Hx. subst x. cbn [snd].
  pose proof (inv_x0 _ _ I) as H0. rewrite R1 in H0.
  pose proof (inv_ne _ _ I) as Hne. destruct c as [|p c]; [congruence|]. cbn in H0.
  exists (ps p). split; [|reflexivity]. rewrite <- H0, R3. apply (rfind_map_in (p :: c) ps p R6). left; auto.
Qed.
Print Assumptions C10_unknown_time_reports_first_point.

Theorem C10_lookup_by_time_refuted :
  exists (d : data nat) t, reachable d /\ ~ In t (times d) /\ snd (getReferenceByTime d t) <> None.
Proof.
  destruct C02_example as (d & H & T & S). exists d, 7.
  assert (Hn : ~ In 7 (times d)) by (rewrite T; intros [E|[E|[E|[]]]]; lra).
  split; auto. split; auto.
  destruct (C10_unknown_time_reports_first_point nat d 7 H Hn) as (s & -> & _). discriminate.
Qed.
Print Assumptions C10_lookup_by_time_refuted.

(** what does hold: a stored time gives its solution, and the curve is not changed *)
Theorem C10_lookup_by_time_partial :
  forall (sol : Type) (d : data sol) t k, reachable d -> nth_error (times d) k = Some t ->
  snd (getReferenceByTime d t) = nth_error (sols d) k /\
  let d' := fst (getReferenceByTime d t) in
  times d' = times d /\ sols d' = sols d /\ levels d' = levels d /\
  waiting d' = waiting d /\ d_jobs d' = d_jobs d /\ d_ID d' = d_ID d.
Proof.
  intros sol d t k H Hk. destruct (reachable_inv d H) as (c & I).
  pose proof (inv_rep _ _ I) as HR. pose proof HR as (R1&R2&R3&R4&R5&R6&R7&R8).
  pose proof (refTime_sim d t) as S. pose proof (sim_rep _ _ _ S HR) as HR'. cbv zeta.
  rewrite (times_eq _ _ HR'), (sols_eq _ _ HR'), (levels_eq _ _ HR').
  rewrite (times_eq _ _ HR) in Hk |- *. rewrite (sols_eq _ _ HR), (levels_eq _ _ HR).
  split; [|destruct S as (tm & xm & -> & _); repeat split; reflexivity].
  rewrite nth_error_map in Hk. destruct (nth_error c k) as [p|] eqn:E; [|discriminate]. injection Hk as <-.
  pose proof (nth_error_In _ _ E) as Hp. rewrite nth_error_map, E. cbn [option_map].
  destruct (inv_ximap _ _ I) as [Hx _]. specialize (Hx p Hp). unfold tval in Hx.
  unfold getReferenceByTime. destruct (rread 0 (pt p) (d_ximap d)) as [x xm]. cbn in *. subst x.
  rewrite R3. apply rfind_map_in; auto.
Qed.
Print Assumptions C10_lookup_by_time_partial.
Example C10_example : exists d : data nat, reachable d /\ nth_error (times d) 1 = Some 1.
Proof. destruct C02_example as (d & H & T & S). exists d. rewrite T. auto. Qed.

(** ** C11: look-up by curve parameter *)
Theorem C11_lookup_by_parameter :
  forall (sol : Type) (d : data sol) x s, reachable d ->
  fst (getReferenceByPar d x) = d /\
  (snd (getReferenceByPar d x) = Some s <->
   exists k, nth_error (d_xi d) k = Some x /\ nth_error (sols d) k = Some s) /\
  (snd (getReferenceByPar d x) = None <-> ~ In x (d_xi d)).
Proof.
  intros sol d x s H. destruct (reachable_inv d H) as (c & I).
  pose proof (inv_rep _ _ I) as HR. pose proof HR as (R1&R2&R3&R4&R5&R6&R7&R8).
  split; [reflexivity|]. unfold getReferenceByPar. cbn [snd]. rewrite (sols_eq _ _ HR), R1, R3. split; split.
  - intros Hf. apply (mfind_in _ Reqb_true) in Hf. apply in_map_iff in Hf as (p & E & Hp). injection E as <- <-.
    apply In_nth_error in Hp as [k Hk]. exists k. rewrite !nth_error_map, Hk. auto.
  - intros (k & H1 & H2). rewrite nth_error_map in H1, H2. destruct (nth_error c k) as [p|] eqn:E; [|discriminate].
    injection H1 as <-. injection H2 as <-. apply rfind_map_in; auto. eapply nth_error_In; eauto.
  - intros Hf. apply (mfind_none Reqb Rltb Reqb_true) in Hf. rewrite map_map in Hf. exact Hf.
  - intros Hn. apply (mfind_none Reqb Rltb Reqb_true). rewrite map_map. exact Hn.
Qed.
Print Assumptions C11_lookup_by_parameter.
Example C11_example : exists (d : data nat) x, reachable d /\ snd (getReferenceByPar d x) = Some 12%nat.
Proof.
  destruct C02_example as (d & H & T & S).
  destruct (C02_export_ordered_complete nat d H) as (L & _ & _ & _ & K & _). rewrite T in L. cbn in L.
  destruct (nth_error (d_xi d) 2) as [x|] eqn:E; [|apply nth_error_None in E; lia].
  exists d, x. split; auto. destruct (K 2%nat x E) as [_ <-]. rewrite S. reflexivity.
Qed.

(** ** C12: job queries. Refuted for an unknown ID: asking for its level creates an active job. *)
Theorem C12_query_unknown_id_refuted :
  exists (d : data nat) id, reachable d /\ ~ In id (map fst (d_jobs d)) /\
    nActive (fst (jobLevel d id)) = S (nActive d).
Proof.
  destruct ex_history as (d0 & d1 & d2 & e0 & e1 & Hc & _ & _ & Hh & _ & J & _).
  exists d2, 7%nat. split; [exists 3%Z, (1/10), d0; eauto|].
  unfold nActive, jobLevel, readJob, mread. rewrite J. cbn. split; [intros [E|[E|[]]]; lia|reflexivity].
Qed.
Print Assumptions C12_query_unknown_id_refuted.

(** for an active job every query leaves the data set as it is *)
Definition unchanged {sol} (d d' : data sol) : Prop :=
  nActive d' = nActive d /\ nWaiting d' = nWaiting d /\ waiting d' = waiting d /\ d_jobs d' = d_jobs d /\
  times d' = times d /\ sols d' = sols d /\ levels d' = levels d /\
  d_xi d' = d_xi d /\ (forall x, timeAt d' x = timeAt d x).
Theorem C12_queries_pure_partial :
  forall (sol : Type) (d : data sol) id e, reachable d -> active d id e ->
  unchanged d (fst (jobLevel d id)) /\ unchanged d (fst (jobTimes d id)) /\
  unchanged d (fst (jobPars d id)) /\ unchanged d (fst (jobStartTime d id)) /\
  unchanged d (fst (jobStartPar d id)) /\ unchanged d (fst (getReferenceByID d id)) /\
  snd (jobLevel d id) = seg_lev e /\ snd (jobTimes d id) = segTimes d e /\
  snd (jobPars d id) = (seg_lo e, seg_hi e) /\ snd (jobStartTime d id) = timeAt d (seg_lo e) /\
  snd (jobStartPar d id) = seg_lo e /\
  (exists k, nth_error (times d) k = Some (timeAt d (seg_hi e)) /\
             snd (getReferenceByID d id) = nth_error (sols d) k).
Proof.
  intros sol d id e H A. destruct (reachable_inv d H) as (c & I).
  pose proof (inv_rep _ _ I) as HR. pose proof (active_nfind _ _ _ _ I A) as Hf.
  assert (U : forall d', sim d d' -> unchanged d d').
  { intros d' S. pose proof (sim_rep _ _ _ S HR) as HR'. unfold unchanged.
    rewrite (times_eq _ _ HR'), (sols_eq _ _ HR'), (levels_eq _ _ HR').
    rewrite (times_eq _ _ HR), (sols_eq _ _ HR), (levels_eq _ _ HR).
    destruct S as (tm & xm & -> & S1 & S2). repeat split; try reflexivity.
    intros x. specialize (S1 x). unfold timeAt, readTime, tval in *. cbn [d_tmap with_maps].
    destruct (rread 0 x tm), (rread 0 x (d_tmap d)). exact S1. }
  assert (Hj : jobLevel d id = (d, seg_lev e) /\ jobPars d id = (d, (seg_lo e, seg_hi e)) /\
               jobStartPar d id = (d, seg_lo e) /\ jobStartTime d id = readTime d (seg_lo e) /\
               getReferenceByID d id = (d, rfind (seg_hi e) (d_sols d))).
  { unfold jobLevel, jobPars, jobStartPar, jobStartTime, getReferenceByID. rewrite (readJob_known _ _ _ Hf). auto. }
  destruct Hj as (-> & -> & -> & -> & ->). cbn [fst snd].
  split; [apply U, sim_refl|]. split; [apply U; eapply jobTimes_sim; eauto|].
  split; [apply U, sim_refl|]. split; [apply U, readTime_sim|].
  split; [apply U, sim_refl|]. split; [apply U, sim_refl|].
  split; [auto|]. split; [eapply jobTimes_val; eauto|]. do 3 (split; [reflexivity|]).
  destruct (entry_points d c e I) as (a & b & Ia & Ib & Ea & Eb).
  { unfold entries. apply in_or_app; right. apply (in_map snd _ (id, e)). exact A. }
  rewrite Eb, (timeAt_val _ _ _ HR Ib), (times_eq _ _ HR), (sols_eq _ _ HR).
  pose proof HR as (R1&R2&R3&R4&R5&R6&R7&R8). rewrite R3, (rfind_map_in c ps b R6 Ib).
  apply In_nth_error in Ib as [k Hk]. exists k. rewrite !nth_error_map, Hk. auto.
Qed.
Print Assumptions C12_queries_pure_partial.
Example C12_example : exists (d : data nat) e, reachable d /\ active d 1 e.
Proof. destruct C01_example as (d & e & e' & H & _ & A & _). exists d, e'. auto. Qed.

(** ** C64: pop never fails while work is waiting, and returns a job of the front segment *)
Theorem C64_pop_total :
  forall (sol : Type) (d : data sol), reachable d -> isEmpty d = false ->
  exists d' id dt start prev e,
    pop d = Ok (d', (id, dt, start, prev)) /\
    hd_error (waiting d) = Some e /\ waiting d' = tl (waiting d) /\
    d_jobs d' = d_jobs d ++ [(id, e)] /\ times d' = times d /\ sols d' = sols d /\ levels d' = levels d /\
    (correction e -> dt = snd (segTimes d e) - fst (segTimes d e)) /\
    (seg_lev e = 0%Z -> dt = getLength d) /\
    (exists k, nth_error (times d) k = Some (timeAt d (seg_lo e)) /\ nth_error (sols d) k = Some start).
Proof.
  intros sol d H He. destruct (reachable_inv d H) as (c & I). unfold isEmpty in He.
  destruct (d_queue d) as [|e q] eqn:Eq; [discriminate|].
  destruct (pop_total d c e q I Eq) as (d' & [[[id dt] start] prev] & P).
  destruct (pop_inv _ _ _ _ _ _ _ I P)
    as (I' & -> & xl & xh & lv & q' & a & b & Eq' & Q' & J & IDs & Ia & Ib & Ea & Eb & Es & Ep & Ed & _).
  rewrite Eq in Eq'. injection Eq' as -> <-.
  pose proof (inv_rep _ _ I) as HR. pose proof (inv_rep _ _ I') as HR'.
  exists d', (d_ID d), dt, start, prev, (xl, xh, lv).
  split; [auto|]. unfold waiting. rewrite Eq, Q', J. do 3 (split; [reflexivity|]).
  rewrite (times_eq _ _ HR'), (sols_eq _ _ HR'), (levels_eq _ _ HR').
  rewrite (times_eq _ _ HR), (sols_eq _ _ HR), (levels_eq _ _ HR). do 3 (split; [reflexivity|]).
  unfold segTimes, correction. cbn [seg_lo seg_hi seg_lev fst snd]. rewrite <- Ea, <- Eb.
  rewrite (timeAt_val _ _ _ HR Ia), (timeAt_val _ _ _ HR Ib). rewrite <- Ea, <- Eb in Ed. split; [|split].
  - intros Hc. replace (lv =? 0)%Z with false in Ed by (symmetry; apply Z.eqb_neq; lia).
    rewrite andb_false_r in Ed. auto.
  - intros ->. pose proof (inv_entries _ _ I) as Hent. unfold entries in Hent. rewrite Eq in Hent.
    inversion Hent as [|? ? [(_ & Hlh & _)|(Hl & _)] _]; subst; [|cbn in Hl; lia].
    cbn in Hlh. rewrite Hlh, Reqb_refl. reflexivity.
  - apply In_nth_error in Ia as [k Hk]. exists k. rewrite !nth_error_map, Hk. cbn. split; congruence.
Qed.
Print Assumptions C64_pop_total.
Example C64_example : exists d : data nat, reachable d /\ isEmpty d = false.
Proof.
  destruct ex_history as (d0 & d1 & d2 & e0 & e1 & Hc & _ & _ & _ & Hp & _). exists d0.
  split; [exists 3%Z, (1/10), d0, []; split; [auto|constructor]|].
  cbn [exec] in Hp. unfold isEmpty. unfold pop in Hp. destruct (d_queue d0); auto.
  destruct (negb (d_init d0)); discriminate.
Qed.
