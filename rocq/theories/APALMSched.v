(** Invariant of the main process of gsAPALM::solve / parallelSolve under every order of
    the workers' answers. *)
From Verif Require Import Prelude APALMData APALMDataProofs APALMDataInv APALMSpec APALMHist APALMDataEx APALMDriver.
Local Open Scope R_scope.

Section Lists.
Context {A : Type}.
Lemma perm_filter (f : A -> bool) l l' : Permutation l l' -> Permutation (filter f l) (filter f l').
Proof.
  induction 1; cbn; auto.
  - destruct (f x); auto.
  - destruct (f x), (f y); auto. constructor.
  - etransitivity; eauto.
Qed.
End Lists.

Section Branch.
Context {sol : Type}.
Notation data := (data sol).

(** entries (waiting or handed out) of level 0: requests to continue the curve *)
Definition zeros (d : data) : list segment := filter (fun e => (seg_lev e =? 0)%Z) (waiting d ++ handedOut d).
(** number of exported points of level 0 *)
Definition lev0 (d : data) : nat := length (filter (fun l => (l =? 0)%Z) (levels d)).

Definition bhist (d : data) (h : list (@call sol * @out sol)) : Prop :=
  exists ml tol d0, created ml tol d0 /\ history d0 h d.

Lemma bhist_reachable d h : bhist d h -> reachable d.
Proof. intros (ml & tol & d0 & H1 & H2). exists ml, tol, d0, h. auto. Qed.
Lemma bhist_step d h k o d' : bhist d h -> allowed d k -> exec d k = Ok (d', o) -> bhist d' (h ++ [(k, o)]).
Proof. intros (ml & tol & d0 & H1 & H2) HA HE. exists ml, tol, d0. split; auto. econstructor; eauto. Qed.

(** ** effects of single operations *)
Lemma sim_same (d d' : data) c : Inv d c -> sim d d' ->
  Inv d' c /\ zeros d' = zeros d /\ lev0 d' = lev0 d /\ times d' = times d /\ sols d' = sols d /\
  levels d' = levels d /\ d_xi d' = d_xi d /\ d_ID d' = d_ID d /\ d_jobs d' = d_jobs d /\
  d_queue d' = d_queue d /\ d_dt d' = d_dt d /\
  (forall x, timeAt d' x = timeAt d x).
Proof.
  intros I S. pose proof (inv_rep _ _ I) as HR. pose proof (sim_rep _ _ _ S HR) as HR'.
  split; [eapply sim_inv; eauto|]. unfold lev0.
  rewrite (times_eq _ _ HR'), (sols_eq _ _ HR'), (levels_eq _ _ HR').
  rewrite (times_eq _ _ HR), (sols_eq _ _ HR), (levels_eq _ _ HR).
  destruct S as (tm & xm & -> & S1 & S2). repeat (split; [reflexivity|]).
  intros x. specialize (S1 x). unfold timeAt, readTime, tval in *. cbn [d_tmap with_maps].
  destruct (rread 0 x tm), (rread 0 x (d_tmap d)). exact S1.
Qed.

Lemma pop_effect (d d' : data) c id dt start prev : Inv d c -> pop d = Ok (d', (id, dt, start, prev)) ->
  Inv d' c /\ id = d_ID d /\ d_ID d' = S (d_ID d) /\ lev0 d' = lev0 d /\ d_xi d' = d_xi d /\
  Permutation (zeros d') (zeros d) /\
  exists e q, d_queue d = e :: q /\ d_queue d' = q /\ d_jobs d' = d_jobs d ++ [(id, e)].
Proof.
  intros I P. destruct (pop_inv _ _ _ _ _ _ _ I P)
    as (I' & -> & xl & xh & lv & q' & a & b & Eq & Q' & J & IDs & _).
  pose proof (inv_rep _ _ I) as HR. pose proof (inv_rep _ _ I') as HR'.
  split; [auto|]. split; [auto|]. split; [auto|]. unfold lev0. rewrite (levels_eq _ _ HR'), (levels_eq _ _ HR).
  split; [auto|]. split. { destruct HR as (-> & _), HR' as (-> & _). reflexivity. }
  split.
  - unfold zeros, waiting, handedOut. rewrite Eq, Q', J. apply perm_filter.
    rewrite map_app. cbn [map snd app]. rewrite app_assoc. symmetry. apply Permutation_cons_append.
  - exists (xl, xh, lv), q'. auto.
Qed.

Lemma spliced_last (pre : list (@point sol)) a b post lev ds ss x :
  last (map px (spliced pre a b post lev ds ss)) x = last (map px (pre ++ a :: b :: post)) x.
Proof.
  unfold spliced. rewrite !map_app. cbn [map].
  assert (G : forall (l : list R) a r, last (l ++ a :: r) x = last (a :: r) x).
  { induction l as [|y l IH]; intros a' r; auto. cbn [app]. rewrite <- (IH a' r).
    destruct l; reflexivity. }
  assert (G2 : forall y (l : list R) a r, last (y :: l ++ a :: r) x = last (a :: r) x).
  { intros y l a' r. exact (G (y :: l) a' r). }
  rewrite !G, !map_app. cbn [map]. rewrite G2.
  change (px a :: px b :: map px post) with (px a :: [] ++ px b :: map px post). rewrite G2.
  rewrite map_map. reflexivity.
Qed.

Lemma zeros_erase (d : data) id e c : Inv d c -> nfind id (d_jobs d) = Some e ->
  exists j1 j2, d_jobs d = j1 ++ (id, e) :: j2 /\ nerase id (d_jobs d) = j1 ++ j2.
Proof. intros I H. apply nfind_split; auto. apply I. Qed.

Lemma complete_effect (d : data) c id e ds ss up lo d1 :
  Inv d c -> active d id e -> correction e -> result_ok ds ss ->
  submit d id ds ss up lo = Ok d1 ->
  let d' := finishJob d1 id in
  (exists c', Inv d' c') /\ zeros d' = zeros d /\ lev0 d' = lev0 d /\
  last (d_xi d') 0 = last (d_xi d) 0 /\ d_ID d' = d_ID d /\
  d_jobs d' = nerase id (d_jobs d).
Proof.
  intros I Ha Hc Hr Hs. destruct e as [[xl xh] lev].
  pose proof (active_nfind _ _ _ _ I Ha) as Hf.
  destruct (complete_inv d c id lev xl xh ds ss up lo d1 I Hf Hc Hr Hs)
    as (pre & a & b & post & Ec & E1 & E2 & Hck & I' & Q & J & EI & _).
  cbv zeta. split; [eauto|]. pose proof (inv_rep _ _ I) as HR. pose proof (inv_rep _ _ I') as HR'.
  destruct (zeros_erase d id _ c I Hf) as (j1 & j2 & EJ1 & EJ2).
  split; [|split; [|split; [|split]]].
  - unfold zeros, waiting, handedOut, finishJob. cbn [d_queue d_jobs with_jobs].
    rewrite Q, J, EJ2, EJ1. rewrite !map_app. cbn [map snd].
    assert (N : filter (fun e => (seg_lev e =? 0)%Z)
       (newSegments (d_maxLevel d) (d_tol d) (px a :: midX a b ds ++ [px b]) lev
          (pt b - pt a - lo) (Rsum ds - up - (pt b - pt a - lo)) (pt b - pt a)) = []).
    { unfold newSegments. unfold correction in Hc. cbn in Hc.
      destruct (lev <? d_maxLevel d)%Z; [|reflexivity].
      match goal with |- filter _ (map _ ?l) = _ => generalize l end. intros l.
      induction l as [|k l IH]; [reflexivity|]. cbn [map filter seg_lev snd].
      replace (lev + 1 =? 0)%Z with false by (symmetry; apply Z.eqb_neq; lia). exact IH. }
    rewrite !filter_app, N, app_nil_r. cbn [filter]. unfold correction in Hc. cbn [seg_lev snd] in *.
    replace (lev =? 0)%Z with false by (symmetry; apply Z.eqb_neq; lia). reflexivity.
  - unfold lev0. rewrite (levels_eq _ _ HR'), (levels_eq _ _ HR), Ec.
    destruct Hr as [Hlen Hpos].
    rewrite spliced_map, newPoints_pl
      by (rewrite ?(midX_length a b ds ss Hlen), ?(midT_length a ds ss Hlen); reflexivity).
    replace (pre ++ a :: b :: post) with ((pre ++ [a]) ++ b :: post) by (rewrite <- app_assoc; reflexivity).
    rewrite !map_app, !filter_app.
    assert (N : filter (fun l => (l =? 0)%Z) (repeat lev (length ss)) = []).
    { clear -Hc. unfold correction in Hc. cbn in Hc. induction (length ss) as [|n IH]; [reflexivity|].
      cbn [repeat filter]. replace (lev =? 0)%Z with false by (symmetry; apply Z.eqb_neq; lia). exact IH. }
    rewrite N. reflexivity.
  - destruct HR as (-> & _), HR' as (-> & _). rewrite Ec. apply spliced_last.
  - unfold finishJob. cbn. exact EI.
  - unfold finishJob. cbn. rewrite J. reflexivity.
Qed.

Lemma kinsert_length x l : length (kinsert x l) = S (length l).
Proof. induction l as [|y l IH]; cbn; auto. destruct (Rltb x y); cbn; auto. Qed.

Lemma appendData_total (d : data) c t s prio : Inv d c -> last (d_t d) 0 < t ->
  exists d', appendData d t s prio = Ok d'.
Proof.
  intros I Ht. pose proof (inv_rep _ _ I) as (R1&R2&R3&R4&R5&R6&R7&R8). pose proof (inv_ne _ _ I) as Hne.
  unfold appendData. rewrite (proj2 (Rltb_true _ _) Ht), orb_true_r.
  assert (El : length (d_t d) = length (d_xi d)) by (rewrite R1, R2, !map_length; auto).
  rewrite El, Nat.eqb_refl. cbn [negb].
  match goal with |- exists _, rbind ?X _ = _ => assert (HX : exists xi, X = Ok xi) end.
  { rewrite R1, R2. destruct c as [|p0 [|p1 c]]; [congruence|cbn; eauto|]. cbn [map length].
    assert (Reqb (last (pt p0 :: pt p1 :: map pt c) 0 - hd 0 (pt p0 :: pt p1 :: map pt c)) 0 = false) as E.
    { apply Reqb_false. cbn [map] in R7. apply incr_cons in R7 as [_ R7].
      assert (pt p0 < last (pt p0 :: pt p1 :: map pt c) 0); [|cbn [hd]; lra].
      apply R7. change (last (pt p0 :: pt p1 :: map pt c) 0) with (last (pt p1 :: map pt c) 0).
      apply last_in. discriminate. }
    rewrite E. eauto. }
  destruct HX as [xi HX]. rewrite HX. clear HX. cbn [rbind].
  assert (Hl : (length (d_xi d) =? 0)%nat = false).
  { rewrite R1, map_length. destruct c; [congruence|reflexivity]. }
  rewrite Hl.
  assert (Hd : exists p, deref (last (d_xi d) 0) (rinsert xi s (d_sols d)) = Ok p).
  { unfold deref. destruct (exists_last Hne) as (c0 & q & Ec).
    assert (Elx : last (d_xi d) 0 = px q) by (rewrite R1, Ec, map_app; apply last_last).
    assert (F : rfind (px q) (d_sols d) = Some (ps q)).
    { rewrite R3. apply rfind_map_in; auto. rewrite Ec. apply in_or_app; right; left; auto. }
    rewrite Elx. unfold minsert. destruct (rfind xi (d_sols d)) eqn:Ef; [rewrite F; eauto|].
    destruct (Req_EM_T xi (px q)) as [->|Hn]; [congruence|].
    rewrite (mfind_mset_other _ _ Reqb_true) by auto. rewrite F. eauto. }
  destruct Hd as [p Hd]. rewrite Hd. cbn [rbind]. unfold buildMap.
  cbn [d_xi d_t with_knots with_init with_queue with_sols]. rewrite !kinsert_length, El, Nat.eqb_refl. eauto.
Qed.

Lemma appendPoint_effect (d d' : data) c prio : Inv d c -> appendPoint d prio = Ok d' ->
  Inv d' c /\ d_jobs d' = d_jobs d /\ d_ID d' = d_ID d /\ d_xi d' = d_xi d /\ lev0 d' = lev0 d /\
  times d' = times d /\ sols d' = sols d /\
  Permutation (zeros d') ((last (d_xi d) 0, last (d_xi d) 0, 0%Z) :: zeros d).
Proof.
  intros I H. destruct (appendPoint_inv _ _ _ _ I H) as (I' & EJ & EI & EQ).
  pose proof (inv_rep _ _ I) as HR. pose proof (inv_rep _ _ I') as HR'.
  split; [auto|]. split; [auto|]. split; [auto|].
  split. { destruct HR as (-> & _), HR' as (-> & _). reflexivity. }
  unfold lev0. rewrite (levels_eq _ _ HR'), (levels_eq _ _ HR), (times_eq _ _ HR'), (times_eq _ _ HR),
    (sols_eq _ _ HR'), (sols_eq _ _ HR).
  do 3 (split; [reflexivity|]). unfold zeros, waiting, handedOut. rewrite EQ, EJ.
  set (e := (last (d_xi d) 0, last (d_xi d) 0, 0%Z)).
  assert (P : Permutation (push prio e (d_queue d) ++ map snd (d_jobs d)) (e :: d_queue d ++ map snd (d_jobs d))).
  { unfold push. destruct prio; cbn; auto. rewrite <- app_assoc. symmetry. apply Permutation_middle. }
  rewrite (perm_filter _ _ _ P). cbn [filter]. reflexivity.
Qed.

Lemma setLength_effect (d : data) c r : Inv d c ->
  Inv (setLength d r) c /\ lev0 (setLength d r) = lev0 d /\ times (setLength d r) = times d /\
  sols (setLength d r) = sols d /\ levels (setLength d r) = levels d.
Proof.
  intros I. assert (I' : Inv (setLength d r) c) by (destruct I; constructor; auto).
  pose proof (inv_rep _ _ I) as HR. pose proof (inv_rep _ _ I') as HR'.
  split; [auto|]. unfold lev0.
  rewrite (levels_eq _ _ HR'), (levels_eq _ _ HR), (times_eq _ _ HR'), (times_eq _ _ HR),
    (sols_eq _ _ HR'), (sols_eq _ _ HR). auto.
Qed.

(** receipt of an initiation: appendData then finishJob *)
Lemma extend_effect (d d1 : data) c id e t s :
  Inv d c -> active d id e -> seg_lev e = 0%Z -> appendData d t s false = Ok d1 ->
  let d' := finishJob d1 id in
  (exists c', Inv d' c') /\ times d' = times d ++ [t] /\ sols d' = sols d ++ [s] /\
  lev0 d' = S (lev0 d) /\ d_ID d' = d_ID d /\ d_jobs d' = nerase id (d_jobs d) /\
  length (zeros d) = S (length (zeros d')) /\ incl (zeros d') (zeros d) /\ d_dt d' = d_dt d.
Proof.
  intros I Ha He H. destruct (appendData_inv _ _ _ _ _ _ I H)
    as (p & x & y & I' & Ept & Eps & Epl & Ex & Ey & Hlt & EJ & EI & Edt & _ & _ & _ & _ & _ & EQ).
  cbv zeta. pose proof (finish_inv _ _ id I') as I2. split; [eauto|].
  pose proof (inv_rep _ _ I) as HR. pose proof (inv_rep _ _ I2) as HR'.
  unfold lev0. rewrite (levels_eq _ _ HR'), (levels_eq _ _ HR), (times_eq _ _ HR'), (times_eq _ _ HR),
    (sols_eq _ _ HR'), (sols_eq _ _ HR).
  rewrite !map_app. cbn [map]. rewrite Ept, Eps, Epl.
  do 2 (split; [reflexivity|]).
  split. { rewrite filter_app, app_length. cbn. lia. }
  split. { unfold finishJob; cbn. auto. }
  split. { unfold finishJob; cbn. rewrite EJ. reflexivity. }
  pose proof (active_nfind _ _ _ _ I Ha) as Hf.
  destruct (zeros_erase d id _ c I Hf) as (j1 & j2 & EJ1 & EJ2).
  unfold zeros, waiting, handedOut, finishJob. cbn [d_queue d_jobs with_jobs d_dt].
  rewrite EJ, EQ, EJ2, EJ1. unfold push. rewrite !map_app. cbn [map snd].
  rewrite !filter_app. cbn [filter seg_lev snd]. rewrite He, Z.eqb_refl.
  cbn [Z.eqb]. rewrite app_nil_r. split; [|split; [|exact Edt]].
  - rewrite !app_length. cbn. lia.
  - intros z Hz. apply in_app_or in Hz as [Hz|Hz]; apply in_or_app; auto.
    right. apply in_app_or in Hz as [Hz|Hz]; apply in_or_app; auto. right; right; auto.
Qed.
End Branch.

Section Main.
Context {sol : Type}.
Notation data := (data sol).
Notation main := (main sol).
Notation job := (job sol).
Notation answer := (answer sol).
Variable st : settings sol.
Variables (ml : Z) (tol : R).
Hypothesis Hempty : st_dataEmpty st = newData ml tol.
(** [nobif]: no answer reports a bifurcation *)
Variable nobif : Prop.

Definition key (x : nat * job) : nat * nat := (j_branch (snd x), j_ID (snd x)).

Record branch_ok (b : nat) (d : data) (running sent : list (nat * job)) : Prop := mkBO {
  bo_hist : exists h, bhist d h /\ forall w j, In (w, j) running -> j_branch j = b ->
              In (CPop, OPop (j_ID j) (j_dt j) (j_start j) (j_prev j)) h;
  bo_active : forall id e, active d id e -> exists w j, In (w, j) running /\ j_branch j = b /\ j_ID j = id;
  bo_run : forall w j, In (w, j) running -> j_branch j = b ->
             exists e, active d (j_ID j) e /\ seg_lev e = j_level j;
  bo_ids : forall w j, In (w, j) sent -> j_branch j = b -> (j_ID j < d_ID d)%nat;
  bo_zeros : if st_solve st
             then (length (zeros d) <= 1)%nat /\ forall e, In e (zeros d) -> seg_lo e = last (d_xi d) 0
             else zeros d = []
}.

Definition kind_ok (j : job) : Prop :=
  match j_info j with
  | JInit _ => st_solve st = true /\ j_level j = 0%Z
  | JCorr _ _ => (1 <= j_level j)%Z
  end.

Definition maxInit : Z := Z.max 1 (st_Nsteps st - 1).
Definition k_ok (d : data) (k : Z) : Prop :=
  k = Z.of_nat (lev0 d) /\ (1 <= k <= maxInit + 1)%Z /\ (zeros d <> [] -> (k <= maxInit)%Z) /\
  (nobif -> zeros d = [] -> k = (maxInit + 1)%Z).

Record CInv (m : main) : Prop := mkCI {
  ci_njobs : mn_njobs m = length (mn_running m);
  ci_logs : Permutation (mn_sent m) (mn_done m ++ mn_running m);
  ci_nodup : NoDup (map key (mn_sent m));
  ci_workers : NoDup (mn_workers m ++ map fst (mn_running m));
  ci_branches : forall b d, nth_error (mn_data m) b = Some d -> branch_ok b d (mn_running m) (mn_sent m);
  ci_range : forall w j, In (w, j) (mn_sent m) -> (j_branch j < length (mn_data m))%nat;
  ci_kinds : forall w j, In (w, j) (mn_running m) -> kind_ok j;
  ci_K : st_solve st = true -> length (mn_K m) = length (mn_data m) /\
         forall b d, nth_error (mn_data m) b = Some d -> exists k, nth_error (mn_K m) b = Some k /\ k_ok d k
}.

(** what main may expect of a worker *)
Definition valid_answer (j : job) (a : answer) : Prop :=
  match j_info j, a with
  | JInit _, AInit dist ss bif =>
      0 < dist /\ length ss = (if bif then 2 else 1)%nat /\ (nobif -> bif = false)
  | JCorr _ _, ACorr ds ss up lo =>
      length ds = S (length ss) /\ Forall (fun x => 0 < x) ds /\
      (j_dt j - Rsum (removelast ds)) / j_dt j < 1 / 10 ^ 12
  | _, _ => False
  end.

(** ** container *)
Lemma setBranch_length (c : list data) k d : length (setBranch c k d) = length c.
Proof. revert k. induction c as [|x c IH]; intros [|k]; cbn; auto. Qed.
Lemma setBranch_same (c : list data) k d : (k < length c)%nat -> nth_error (setBranch c k d) k = Some d.
Proof. revert k. induction c as [|x c IH]; intros [|k] H; cbn in *; auto; try lia. apply IH. lia. Qed.
Lemma setBranch_other (c : list data) k k' d : k <> k' -> nth_error (setBranch c k d) k' = nth_error c k'.
Proof.
  revert k k'. induction c as [|x c IH]; intros [|k] [|k'] H; cbn in *; auto; try lia.
Qed.
Lemma setBranch_id (c : list data) k d : nth_error c k = Some d -> setBranch c k d = c.
Proof.
  revert k. induction c as [|x c IH]; intros [|k] H; cbn in *; try discriminate; [congruence|].
  rewrite IH; auto.
Qed.
Lemma setK_length (c : list Z) k d : length (setK c k d) = length c.
Proof. revert k. induction c as [|x c IH]; intros [|k]; cbn; auto. Qed.
Lemma setK_same (c : list Z) k d : (k < length c)%nat -> nth_error (setK c k d) k = Some d.
Proof. revert k. induction c as [|x c IH]; intros [|k] H; cbn in *; auto; try lia. apply IH. lia. Qed.
Lemma setK_other (c : list Z) k k' d : k <> k' -> nth_error (setK c k d) k' = nth_error c k'.
Proof.
  revert k k'. induction c as [|x c IH]; intros [|k] [|k'] H; cbn in *; auto; try lia.
Qed.

Lemma firstNonEmpty_spec (c : list data) : forall k, cEmpty c = false ->
  exists i d, firstNonEmptyFrom k c = Ok (k + i)%nat /\ nth_error c i = Some d /\ isEmpty d = false /\
    (forall i' d', (i' < i)%nat -> nth_error c i' = Some d' -> isEmpty d' = true).
Proof.
  induction c as [|d c IH]; intros k H; [discriminate|]. cbn in *. destruct (isEmpty d) eqn:E.
  - destruct (IH (S k) H) as (i & d' & H1 & H2 & H3 & H4). exists (S i), d'. rewrite H1.
    split; [f_equal; lia|]. split; [auto|]. split; [auto|]. intros [|i'] d'' L Hn; cbn in Hn.
    + injection Hn as <-. auto.
    + eapply H4; eauto. lia.
  - exists 0%nat, d. rewrite Nat.add_0_r. repeat split; auto. intros; lia.
Qed.

(** ** dispatch *)
Lemma dispatch_ok (m : main) w ws : CInv m -> cEmpty (mn_data m) = false -> mn_workers m = w :: ws ->
  exists m' j, dispatch st m = Ok m' /\ CInv m' /\
    mn_it m' = S (mn_it m) /\ mn_workers m' = ws /\ mn_K m' = mn_K m /\
    mn_running m' = mn_running m ++ [(w, j)] /\ mn_sent m' = mn_sent m ++ [(w, j)] /\
    mn_done m' = mn_done m /\ mn_njobs m' = S (mn_njobs m) /\ length (mn_data m') = length (mn_data m) /\
    (forall b, b <> j_branch j -> nth_error (mn_data m') b = nth_error (mn_data m) b) /\
    (forall b d, (b < j_branch j)%nat -> nth_error (mn_data m) b = Some d -> isEmpty d = true) /\
    exists d d' e q, nth_error (mn_data m) (j_branch j) = Some d /\ d_queue d = e :: q /\
      nth_error (mn_data m') (j_branch j) = Some d' /\ d_queue d' = q /\ seg_lev e = j_level j /\
      Permutation (zeros d') (zeros d) /\ times d' = times d /\ sols d' = sols d.
Proof.
  intros C He Hw. destruct (firstNonEmpty_spec (mn_data m) 0 He) as (b & d & Eb & Hb & Hd & Hfirst).
  cbn [Nat.add] in Eb. pose proof (ci_branches _ C b d Hb) as BO.
  destruct (bo_hist _ _ _ _ BO) as (h & Hh & Hhj).
  destruct (reachable_inv d (bhist_reachable _ _ Hh)) as (c & I).
  unfold isEmpty in Hd. destruct (d_queue d) as [|e q] eqn:Eq; [discriminate|].
  destruct (pop_total d c e q I Eq) as (d1 & [[[id dt] start] prev] & P).
  destruct (pop_effect _ _ _ _ _ _ _ I P) as (I1 & Eid & EID & El0 & Exi & Ez & e' & q' & Eq' & Eq1 & EJ).
  rewrite Eq in Eq'. injection Eq' as <- <-.
  assert (Hh1 : bhist d1 (h ++ [(CPop, OPop id dt start prev)])).
  { apply (bhist_step d h); auto; [exact Logic.I|]. cbn [exec]. rewrite P. reflexivity. }
  assert (A1 : active d1 id e) by (unfold active; rewrite EJ; apply in_or_app; right; left; auto).
  pose proof (active_nfind _ _ _ _ I1 A1) as Hf1.
  assert (EL : jobLevel d1 id = (d1, seg_lev e)).
  { unfold jobLevel. rewrite (readJob_known _ _ _ Hf1). reflexivity. }
  (* the message and the data set after the queries *)
  assert (Q : exists d2 info k, sim d1 d2 /\ allowed d1 k /\ exec d1 k = Ok (d2, ONone) /\
     (if st_solve st && (seg_lev e =? 0)%Z then
       let '(d, t) := jobStartTime d1 id in Ok (d, JInit t)
      else
       let '(d, ref) := getReferenceByID d1 id in
       match ref with
       | None => Fail EEnsure
       | Some r => let '(d, iv) := jobTimes d id in Ok (d, JCorr iv r)
       end) = Ok (d2, info) /\
     match info with JInit _ => st_solve st = true /\ seg_lev e = 0%Z | JCorr _ _ => (1 <= seg_lev e)%Z end).
  { destruct (st_solve st && (seg_lev e =? 0)%Z) eqn:Em.
    - apply andb_true_iff in Em as [Em1 Em2]. apply Z.eqb_eq in Em2.
      exists (fst (jobStartTime d1 id)), (JInit (snd (jobStartTime d1 id))), (CStartQuery id).
      split; [unfold jobStartTime; rewrite (readJob_known _ _ _ Hf1); apply readTime_sim|].
      split; [cbn; eauto|]. split; [cbn [exec]; rewrite EL; reflexivity|].
      split; [destruct (jobStartTime d1 id); reflexivity|auto].
    - assert (Hl : (1 <= seg_lev e)%Z).
      { assert (Hin : In e (entries d)) by (unfold entries; rewrite Eq; left; auto).
        pose proof (inv_entries _ _ I) as Hent. rewrite Forall_forall in Hent.
        destruct (Hent e Hin) as [(Z0 & _)|(Z1 & _)]; [|lia].
        apply andb_false_iff in Em as [Em|Em]; [|apply Z.eqb_neq in Em; lia].
        pose proof (bo_zeros _ _ _ _ BO) as BZ. rewrite Em in BZ.
        exfalso. assert (In e (zeros d)); [|rewrite BZ in *; contradiction].
        unfold zeros, waiting. rewrite Eq. apply filter_In. split; [left; auto|].
        apply Z.eqb_eq; auto. }
      assert (ER : getReferenceByID d1 id = (d1, rfind (seg_hi e) (d_sols d1))).
      { unfold getReferenceByID. rewrite (readJob_known _ _ _ Hf1). reflexivity. }
      destruct (entry_points d1 c e I1) as (a & b0 & Ia & Ib & Ea & Eb0).
      { unfold entries. apply in_or_app; right. apply (in_map snd _ (id, e)). exact A1. }
      pose proof (inv_rep _ _ I1) as (R1&R2&R3&R4&R5&R6&R7&R8).
      exists (fst (jobTimes d1 id)), (JCorr (snd (jobTimes d1 id)) (ps b0)), (CJobQuery id).
      split; [eapply jobTimes_sim; eauto|]. split; [cbn; eauto|].
      split; [cbn [exec]; rewrite EL; cbn [fst]; rewrite ER; reflexivity|].
      split; [|exact Hl]. rewrite ER, R3, Eb0, (rfind_map_in c ps b0 R6 Ib).
      destruct (jobTimes d1 id); reflexivity. }
  destruct Q as (d2 & info & k & S & HA & HE & EM & Hk).
  destruct (sim_same _ _ _ I1 S) as (I2 & Ez2 & El2 & Et2 & Es2 & _ & Ex2 & EID2 & EJ2 & EQ2 & _ & _).
  set (j := mkJob b id (seg_lev e) dt start prev info).
  exists (mkMain (setBranch (mn_data m) b d2) (Datatypes.S (mn_it m)) (Datatypes.S (mn_njobs m)) ws (mn_K m)
            (mn_running m ++ [(w, j)]) (mn_sent m ++ [(w, j)]) (mn_done m)), j.
  assert (Hbl : (b < length (mn_data m))%nat) by (apply nth_error_Some; congruence).
  split.
  { unfold dispatch, getFirstNonEmptyBranch. rewrite Eb. cbn [rbind]. unfold branch. rewrite Hb. cbn [rbind].
    rewrite P. cbn [rbind]. rewrite EL, EM. cbn [rbind]. rewrite Hw. reflexivity. }
  cbn [mn_it mn_workers mn_K mn_running mn_sent mn_done mn_data].
  split.
  2:{ rewrite setBranch_length. do 8 (split; [reflexivity|]).
      split; [intros b' Hne; apply setBranch_other; cbn in Hne; congruence|].
      split; [cbn; auto|]. exists d, d2, e, q. split; [exact Hb|]. split; [auto|].
      split; [apply setBranch_same; auto|]. split; [congruence|]. split; [reflexivity|].
      split; [rewrite Ez2; exact Ez|].
      pose proof (inv_rep _ _ I1) as HR1. pose proof (inv_rep _ _ I) as HR0.
      rewrite Et2, Es2, (times_eq _ _ HR1), (times_eq _ _ HR0), (sols_eq _ _ HR1), (sols_eq _ _ HR0). auto. }
  assert (Hsub : forall x, In x (mn_running m) -> In x (mn_sent m)).
  { intros x Hx. eapply Permutation_in; [symmetry; apply (ci_logs _ C)|]. apply in_or_app; auto. }
  constructor; cbn [mn_it mn_workers mn_K mn_running mn_sent mn_done mn_data mn_njobs].
  - rewrite app_length. cbn. rewrite (ci_njobs _ C). lia.
  - rewrite app_assoc. apply Permutation_app_tail, (ci_logs _ C).
  - rewrite map_app. cbn [map]. apply (Permutation_NoDup (Permutation_cons_append _ _)).
    constructor; [|apply (ci_nodup _ C)]. unfold key at 1. cbn. intros Hin.
    apply in_map_iff in Hin as ([w' j'] & E & Hin). unfold key in E. cbn in E. injection E as E1 E2.
    pose proof (bo_ids _ _ _ _ BO w' j' Hin E1). lia.
  - pose proof (ci_workers _ C) as ND. rewrite Hw in ND. rewrite map_app. cbn [map fst].
    eapply Permutation_NoDup; [|exact ND]. cbn [app]. rewrite app_assoc. apply Permutation_cons_append.
  - intros b' d' Hb'. destruct (Nat.eq_dec b b') as [<-|Hne].
    + rewrite setBranch_same in Hb' by auto. injection Hb' as <-. constructor.
      * exists ((h ++ [(CPop, OPop id dt start prev)]) ++ [(k, ONone)]). split; [eapply bhist_step; eauto|].
        intros w' j' Hin Ej. apply in_or_app; left. apply in_app_or in Hin as [Hin|[E|[]]].
        -- apply in_or_app; left. eapply Hhj; eauto.
        -- injection E as <- <-. apply in_or_app; right; left; auto.
      * intros id' e' Ha'. unfold active in Ha'. rewrite EJ2, EJ in Ha'. apply in_app_or in Ha' as [Ha'|[E|[]]].
        -- destruct (bo_active _ _ _ _ BO id' e' Ha') as (w' & j' & H1 & H2 & H3).
           exists w', j'. split; auto. apply in_or_app; auto.
        -- injection E as <- <-. exists w, j. split; [apply in_or_app; right; left; auto|auto].
      * intros w' j' Hin Ej. unfold active. rewrite EJ2, EJ. apply in_app_or in Hin as [Hin|[E|[]]].
        -- destruct (bo_run _ _ _ _ BO w' j' Hin Ej) as (e' & H1 & H2). exists e'. split; auto.
           apply in_or_app; auto.
        -- injection E as <- <-. exists e. split; auto. apply in_or_app; right; left; auto.
      * intros w' j' Hin Ej. rewrite EID2, EID. apply in_app_or in Hin as [Hin|[E|[]]].
        -- pose proof (bo_ids _ _ _ _ BO w' j' Hin Ej). lia.
        -- injection E as <- <-. cbn. lia.
      * pose proof (bo_zeros _ _ _ _ BO) as BZ. rewrite Ez2, Ex2, Exi. destruct (st_solve st).
        -- destruct BZ as [B1 B2]. split; [rewrite (Permutation_length Ez); auto|].
           intros e' He'. apply B2. eapply Permutation_in; eauto.
        -- rewrite BZ in Ez. apply Permutation_sym, Permutation_nil in Ez. auto.
    + rewrite setBranch_other in Hb' by auto. pose proof (ci_branches _ C b' d' Hb') as BO'. constructor.
      * destruct (bo_hist _ _ _ _ BO') as (h' & Hh' & Hj'). exists h'. split; auto.
        intros w' j' Hin Ej. apply in_app_or in Hin as [Hin|[E|[]]]; [eauto|].
        injection E as <- <-. cbn in Ej. congruence.
      * intros id' e' Ha'. destruct (bo_active _ _ _ _ BO' id' e' Ha') as (w' & j' & H1 & H2 & H3).
        exists w', j'. split; auto. apply in_or_app; auto.
      * intros w' j' Hin Ej. apply in_app_or in Hin as [Hin|[E|[]]]; [eapply (bo_run _ _ _ _ BO'); eauto|].
        injection E as <- <-. cbn in Ej. congruence.
      * intros w' j' Hin Ej. apply in_app_or in Hin as [Hin|[E|[]]]; [eapply (bo_ids _ _ _ _ BO'); eauto|].
        injection E as <- <-. cbn in Ej. congruence.
      * apply (bo_zeros _ _ _ _ BO').
  - intros w' j' Hin. rewrite setBranch_length. apply in_app_or in Hin as [Hin|[E|[]]].
    + apply (ci_range _ C _ _ Hin).
    + injection E as <- <-. exact Hbl.
  - intros w' j' Hin. apply in_app_or in Hin as [Hin|[E|[]]]; [apply (ci_kinds _ C _ _ Hin)|].
    injection E as <- <-. unfold kind_ok. cbn. exact Hk.
  - intros Hs. destruct (ci_K _ C Hs) as [K1 K2]. rewrite setBranch_length. split; auto.
    intros b' d' Hb'. destruct (Nat.eq_dec b b') as [<-|Hne].
    + rewrite setBranch_same in Hb' by auto. injection Hb' as <-.
      destruct (K2 b d Hb) as (kk & E1 & E2 & E3 & E4 & E5). exists kk. split; auto.
      unfold k_ok. rewrite El2, El0, Ez2. split; [auto|]. split; [auto|]. split.
      * intros Hz. apply E4. intros Hz'. rewrite Hz' in Ez. apply Permutation_sym, Permutation_nil in Ez. auto.
      * intros Hn Hz. apply E5; auto. rewrite Hz in Ez. apply Permutation_nil in Ez. auto.
    + rewrite setBranch_other in Hb' by auto. eauto.
Qed.

(** ** receive *)
Lemma dropRunning_spec w (j : job) r : NoDup (map fst r) -> In (w, j) r ->
  Permutation r ((w, j) :: dropRunning w r) /\ nfind w r = Some j.
Proof.
  induction r as [|[w' j'] r IH]; intros ND Hin; [contradiction|]. cbn in ND |- *.
  inversion ND as [|? ? Hn ND']; subst. destruct (Nat.eqb w w') eqn:E.
  - apply Nat.eqb_eq in E as <-. destruct Hin as [E|Hin].
    + injection E as <-. auto.
    + exfalso. apply Hn. apply (in_map fst _ _ Hin).
  - destruct Hin as [E'|Hin]; [injection E' as -> ->; rewrite Nat.eqb_refl in E; discriminate|].
    destruct (IH ND' Hin) as [P F]. split; auto. rewrite P at 1. constructor.
Qed.

Definition newBranch (d : data) : Prop :=
  bhist d [] /\ d_jobs d = [] /\ zeros d = [(0, 0, 0%Z)] /\ last (d_xi d) 0 = 0 /\ lev0 d = 1%nat.

Lemma receive_frame (m : main) w j d d' news K' : CInv m -> In (w, j) (mn_running m) ->
  nth_error (mn_data m) (j_branch j) = Some d ->
  (exists h1 h2, bhist d h1 /\
    (forall w' j', In (w', j') (mn_running m) -> j_branch j' = j_branch j ->
              In (CPop, OPop (j_ID j') (j_dt j') (j_start j') (j_prev j')) h1) /\
    bhist d' (h1 ++ h2)) ->
  d_jobs d' = nerase (j_ID j) (d_jobs d) -> d_ID d' = d_ID d ->
  (if st_solve st
   then (length (zeros d') <= 1)%nat /\ forall e, In e (zeros d') -> seg_lo e = last (d_xi d') 0
   else zeros d' = []) ->
  (forall n, In n news -> (exists h, bhist n h) /\ d_jobs n = [] /\ if st_solve st
   then (length (zeros n) <= 1)%nat /\ forall e, In e (zeros n) -> seg_lo e = last (d_xi n) 0
   else zeros n = []) ->
  (st_solve st = true -> length K' = length (mn_data m ++ news) /\
     forall b x, nth_error (setBranch (mn_data m) (j_branch j) d' ++ news) b = Some x ->
        exists k, nth_error K' b = Some k /\ k_ok x k) ->
  CInv (mkMain (setBranch (mn_data m) (j_branch j) d' ++ news) (mn_it m) (mn_njobs m - 1)
               (mn_workers m ++ [w]) K' (dropRunning w (mn_running m)) (mn_sent m) (mn_done m ++ [(w, j)])).
Proof.
  intros C Hin Hd (h1 & h2 & Hh1 & Hj1 & Hh2) EJ EI HZ HN HK. set (b := j_branch j) in *.
  assert (NDw : NoDup (map fst (mn_running m))).
  { pose proof (ci_workers _ C) as ND. clear -ND. induction (mn_workers m); auto. inversion ND; auto. }
  destruct (dropRunning_spec w j _ NDw Hin) as [P F].
  set (r' := dropRunning w (mn_running m)) in *.
  assert (Hbl : (b < length (mn_data m))%nat) by (apply nth_error_Some; congruence).
  assert (Hsub : forall x, In x r' -> In x (mn_running m)).
  { intros x Hx. eapply Permutation_in; [symmetry; exact P|right; auto]. }
  assert (NDk : NoDup (map key (mn_running m))).
  { pose proof (ci_nodup _ C) as ND. eapply Permutation_NoDup in ND; [|apply Permutation_map, (ci_logs _ C)].
    rewrite map_app in ND. clear -ND. induction (map key (mn_done m)); auto. inversion ND; auto. }
  assert (Hkeep : forall w' j', In (w', j') (mn_running m) -> (j_branch j' <> b \/ j_ID j' <> j_ID j) -> In (w', j') r').
  { intros w' j' Hx Hne. eapply Permutation_in in Hx; [|exact P]. destruct Hx as [E|Hx]; auto.
    injection E as <- <-. destruct Hne as [Hne|Hne]; exfalso; apply Hne; reflexivity. }
  assert (Hother : forall w' j', In (w', j') r' -> j_branch j' = b -> j_ID j' <> j_ID j).
  { intros w' j' Hx Ej Ei. eapply Permutation_NoDup in NDk; [|apply Permutation_map, P]. cbn [map] in NDk.
    inversion NDk as [|? ? Hn _]; subst. apply Hn. apply in_map_iff. exists (w', j'). split; auto.
    unfold key. cbn. f_equal; auto. }
  destruct (reachable_inv d (bhist_reachable _ _ Hh1)) as (c & I).
  pose proof (ci_branches _ C b d Hd) as BO.
  constructor; cbn [mn_it mn_workers mn_K mn_running mn_sent mn_done mn_data mn_njobs].
  - rewrite (ci_njobs _ C), (Permutation_length P). cbn. lia.
  - rewrite (ci_logs _ C), <- app_assoc. cbn. apply Permutation_app_head. exact P.
  - apply (ci_nodup _ C).
  - eapply Permutation_NoDup; [|apply (ci_workers _ C)]. rewrite <- app_assoc. cbn.
    apply Permutation_app_head. rewrite P. reflexivity.
  - intros b' x Hx. destruct (Nat.lt_ge_cases b' (length (mn_data m))) as [Hl|Hl].
    + rewrite nth_error_app1 in Hx by (rewrite setBranch_length; auto).
      destruct (Nat.eq_dec b b') as [<-|Hne].
      * rewrite setBranch_same in Hx by auto. injection Hx as <-. constructor.
        -- exists (h1 ++ h2). split; auto. intros w' j' Hx Ej. apply in_or_app; left. eauto.
        -- intros id e Ha. unfold active in Ha. rewrite EJ in Ha. apply (in_merase _ Nat.eqb_eq) in Ha as [Ha Hne].
           destruct (bo_active _ _ _ _ BO id e Ha) as (w' & j' & H1 & H2 & H3).
           exists w', j'. split; [|auto]. apply Hkeep; auto. right. cbn in Hne; congruence.
        -- intros w' j' Hx Ej. destruct (bo_run _ _ _ _ BO w' j' (Hsub _ Hx) Ej) as (e & H1 & H2).
           exists e. split; auto. unfold active. rewrite EJ. apply (in_merase _ Nat.eqb_eq). split; auto.
           eapply Hother; eauto.
        -- intros w' j' Hx Ej. rewrite EI. eapply (bo_ids _ _ _ _ BO); eauto.
        -- exact HZ.
      * rewrite setBranch_other in Hx by auto. pose proof (ci_branches _ C b' x Hx) as BO'. constructor.
        -- destruct (bo_hist _ _ _ _ BO') as (h' & Hh' & Hj'). exists h'. split; eauto.
        -- intros id e Ha. destruct (bo_active _ _ _ _ BO' id e Ha) as (w' & j' & H1 & H2 & H3).
           exists w', j'. split; [|auto]. apply Hkeep; auto. left. congruence.
        -- intros w' j' Hx' Ej. eapply (bo_run _ _ _ _ BO'); eauto.
        -- intros w' j' Hx' Ej. eapply (bo_ids _ _ _ _ BO'); eauto.
        -- apply (bo_zeros _ _ _ _ BO').
    + rewrite nth_error_app2 in Hx by (rewrite setBranch_length; auto). apply nth_error_In in Hx.
      destruct (HN _ Hx) as ((h & Hh) & HJ & HZ').
      assert (Hno : forall w' j', In (w', j') (mn_sent m) -> j_branch j' = b' -> False).
      { intros w' j' H1 H2. pose proof (ci_range _ C _ _ H1). lia. }
      assert (Hrs : forall z, In z r' -> In z (mn_sent m)).
      { intros z Hz. eapply Permutation_in; [symmetry; apply (ci_logs _ C)|]. apply in_or_app; auto. }
      constructor.
      * exists h. split; auto. intros w' j' H1 H2. exfalso. eauto.
      * intros id e Ha. unfold active in Ha. rewrite HJ in Ha. contradiction.
      * intros w' j' H1 H2. exfalso. eauto.
      * intros w' j' H1 H2. exfalso. eauto.
      * exact HZ'.
  - intros w' j' Hx. rewrite app_length, setBranch_length. pose proof (ci_range _ C _ _ Hx). lia.
  - intros w' j' Hx. eapply (ci_kinds _ C); eauto.
  - intros Hs. destruct (HK Hs) as [K1 K2]. rewrite app_length, setBranch_length, <- app_length. auto.
Qed.

Definition extended (d d' : data) (dist : R) (s : sol) : Prop :=
  times d' = times d ++ [last (times d) 0 + dist] /\ sols d' = sols d ++ [s].

Lemma setBranch_app_last (c : list data) x y : setBranch (c ++ [x]) (length c) y = c ++ [y].
Proof. induction c as [|z c IH]; cbn; auto. rewrite IH. auto. Qed.

Lemma newStart_ok (s : sol) prio : exists d', addStartPoint (newData ml tol) 0 s prio = Ok d' /\
  created ml tol d' /\ d_jobs d' = [] /\ zeros d' = [(0, 0, 0%Z)] /\ last (d_xi d') 0 = 0 /\ lev0 d' = 1%nat /\
  d_ID d' = 0%nat.
Proof.
  assert (exists d', addStartPoint (newData ml tol) 0 s prio = Ok d') as (d' & E).
  { unfold addStartPoint, newData. cbn. unfold deref. cbn. rewrite Reqb_refl. cbn. eauto. }
  exists d'. split; [auto|]. split; [eapply cr_start; eauto|].
  destruct (created_start_inv _ _ _ _ _ E) as (I & _ & _ & EI & EJ & EQ).
  pose proof (inv_rep _ _ I) as HR. pose proof HR as (R1&_).
  split; [auto|]. split. { unfold zeros, waiting, handedOut. rewrite EJ, EQ. reflexivity. }
  split; [rewrite R1; reflexivity|]. split; [|auto]. unfold lev0. rewrite (levels_eq _ _ HR). reflexivity.
Qed.

Lemma receive_corr_ok (m : main) w j iv ref ds ss up lo : CInv m -> In (w, j) (mn_running m) ->
  j_info j = JCorr iv ref ->
  length ds = S (length ss) -> Forall (fun x => 0 < x) ds ->
  (j_dt j - Rsum (removelast ds)) / j_dt j < 1 / 10 ^ 12 ->
  exists m', receive st m w (ACorr ds ss up lo) = Ok m' /\ CInv m' /\
    mn_it m' = mn_it m /\ mn_workers m' = mn_workers m ++ [w] /\
    mn_running m' = dropRunning w (mn_running m) /\ mn_sent m' = mn_sent m /\
    mn_done m' = mn_done m ++ [(w, j)] /\ mn_njobs m' = (mn_njobs m - 1)%nat /\
    length (mn_data m') = length (mn_data m) /\ mn_K m' = mn_K m /\
    (forall b, b <> j_branch j -> nth_error (mn_data m') b = nth_error (mn_data m) b) /\
    exists d d', nth_error (mn_data m) (j_branch j) = Some d /\ nth_error (mn_data m') (j_branch j) = Some d' /\
      exec d (CComplete (j_ID j) ds ss up lo) = Ok (d', ONone) /\ zeros d' = zeros d.
Proof.
  intros C Hin Ei Hlen Hpos Hdt. pose proof (ci_kinds _ C _ _ Hin) as Hk. unfold kind_ok in Hk. rewrite Ei in Hk.
  assert (Hsent : In (w, j) (mn_sent m)).
  { eapply Permutation_in; [symmetry; apply (ci_logs _ C)|]. apply in_or_app; auto. }
  pose proof (ci_range _ C _ _ Hsent) as Hb. destruct (nth_error (mn_data m) (j_branch j)) as [d|] eqn:Ed.
  2:{ apply nth_error_None in Ed. lia. }
  pose proof (ci_branches _ C _ d Ed) as BO. destruct (bo_hist _ _ _ _ BO) as (h & Hh & Hhj).
  destruct (reachable_inv d (bhist_reachable _ _ Hh)) as (c & I).
  destruct (bo_run _ _ _ _ BO w j Hin eq_refl) as (e & Ha & El).
  pose proof (active_nfind _ _ _ _ I Ha) as Hf.
  assert (Hc : correction e) by (unfold correction; lia).
  assert (Hr : result_ok ds ss) by (split; auto).
  assert (Hdesc : describes d (j_ID j) e (j_dt j) (j_start j) (j_prev j)).
  { destruct Hh as (ml' & tol' & d0 & Hc0 & Hh). pose proof (Hhj w j Hin eq_refl) as Hi.
    apply in_split in Hi as (h1 & h2 & ->). eapply (popped_job_valid d0); eauto. eapply created_inv; eauto. }
  destruct Hdesc as (_ & _ & _ & Hdt'). specialize (Hdt' Hc).
  destruct (proj2 (submit_accepts d c (j_ID j) e ds ss up lo I Ha Hc Hr)) as (d1 & Hs).
  { rewrite (jobTimes_val _ _ _ _ I Ha). unfold segTimes. rewrite Hdt'. exact Hdt. }
  destruct (complete_effect d c (j_ID j) e ds ss up lo d1 I Ha Hc Hr Hs) as (I' & Ez & E0 & Ex & EID & EJ).
  set (d' := finishJob d1 (j_ID j)) in *.
  assert (HE : exec d (CComplete (j_ID j) ds ss up lo) = Ok (d', ONone)) by (cbn [exec]; rewrite Hs; reflexivity).
  eexists. split.
  { unfold receive, runningJob.
    assert (NDw : NoDup (map fst (mn_running m))).
    { pose proof (ci_workers _ C) as ND. clear -ND. induction (mn_workers m); auto. inversion ND; auto. }
    destruct (dropRunning_spec w j _ NDw Hin) as [_ F]. rewrite F. unfold branch. rewrite Ed. cbn [rbind].
    replace (if st_solve st then jobLevel d (j_ID j) else (d, 1%Z)) with (d, if st_solve st then seg_lev e else 1%Z).
    2:{ destruct (st_solve st); auto. unfold jobLevel. rewrite (readJob_known _ _ _ Hf). reflexivity. }
    cbn match. rewrite (setBranch_id _ _ _ Ed).
    replace ((if st_solve st then seg_lev e else 1) =? 0)%Z with false.
    2:{ symmetry. apply Z.eqb_neq. destruct (st_solve st); lia. }
    unfold receiveCorr, branch. rewrite Ed. cbn [rbind]. rewrite Hs. cbn [rbind]. reflexivity. }
  cbn [mn_it mn_workers mn_K mn_running mn_sent mn_done mn_data]. fold d'.
  split.
  { rewrite <- (app_nil_r (setBranch _ _ _)). apply (receive_frame m w j d d' [] (mn_K m)); auto.
    - exists h, [(CComplete (j_ID j) ds ss up lo, ONone)]. split; auto. split; auto.
      eapply bhist_step; eauto. cbn. split; [exists e; split; auto; lia|auto].
    - pose proof (bo_zeros _ _ _ _ BO) as BZ. rewrite Ez. destruct (st_solve st); auto. rewrite Ex. auto.
    - intros n [].
    - intros Hst. destruct (ci_K _ C Hst) as [K1 K2]. rewrite !app_nil_r. split; auto.
      intros b x Hx. destruct (Nat.eq_dec (j_branch j) b) as [<-|Hne].
      + rewrite setBranch_same in Hx by auto. injection Hx as <-. destruct (K2 _ _ Ed) as (k & Hk1 & Hk2).
        exists k. split; auto. unfold k_ok in *. rewrite E0, Ez. auto.
      + rewrite setBranch_other in Hx by auto. eauto. }
  rewrite setBranch_length. do 8 (split; [auto|]).
  split; [intros b' Hne; apply setBranch_other; congruence|].
  exists d, d'. split; auto. split; auto. apply setBranch_same; auto.
Qed.

Lemma last_In {A} (l : list A) a : l <> [] -> In (last l a) l.
Proof.
  induction l as [|x l IH]; intros H; [contradiction|]. destruct l as [|y l]; [left; auto|].
  right. apply IH. discriminate.
Qed.

Lemma last_map_nonempty {A B} (f : A -> B) (l : list A) a b : l <> [] -> last (map f l) b = f (last l a).
Proof.
  induction l as [|x l IH]; intros H; [contradiction|]. destruct l as [|y l]; auto.
  change (last (map f (y :: l)) b = f (last (y :: l) a)). apply IH. discriminate.
Qed.

Lemma receive_init_ok (m : main) w j t0 (dist : R) (ss : list sol) (bif : bool) : CInv m -> In (w, j) (mn_running m) ->
  j_info j = JInit t0 -> 0 < dist -> length ss = (if bif then 2 else 1)%nat -> (nobif -> bif = false) ->
  exists m', receive st m w (AInit dist ss bif) = Ok m' /\ CInv m' /\
    mn_it m' = mn_it m /\ mn_workers m' = mn_workers m ++ [w] /\
    mn_running m' = dropRunning w (mn_running m) /\ mn_sent m' = mn_sent m /\
    mn_done m' = mn_done m ++ [(w, j)] /\ mn_njobs m' = (mn_njobs m - 1)%nat /\
    exists k, nth_error (mn_K m) (j_branch j) = Some k /\
    let new := bif && (k <? st_Nsteps st - 1)%Z in
    length (mn_data m') = (length (mn_data m) + (if new then 1 else 0))%nat /\
    mn_K m' = setK (mn_K m) (j_branch j) (k + 1)%Z ++ (if new then [1%Z] else []) /\
    (forall b, b <> j_branch j -> (b < length (mn_data m))%nat ->
       nth_error (mn_data m') b = nth_error (mn_data m) b) /\
    (exists d d' s, nth_error (mn_data m) (j_branch j) = Some d /\ nth_error (mn_data m') (j_branch j) = Some d' /\
      nth_error ss 0 = Some s /\ extended d d' dist s /\ isEmpty d' = false /\ (new = true -> zeros d' = [])) /\
    (new = true -> exists n s, nth_error (mn_data m') (length (mn_data m)) = Some n /\
       nth_error ss 1 = Some s /\ times n = [0] /\ sols n = [s] /\ getLength n = st_newLength st).
Proof.
  intros C Hin Ei Hdist Hss Hnb. pose proof (ci_kinds _ C _ _ Hin) as Hk. unfold kind_ok in Hk. rewrite Ei in Hk.
  destruct Hk as [Hst Hl0].
  assert (Hsent : In (w, j) (mn_sent m)).
  { eapply Permutation_in; [symmetry; apply (ci_logs _ C)|]. apply in_or_app; auto. }
  pose proof (ci_range _ C _ _ Hsent) as Hb. destruct (nth_error (mn_data m) (j_branch j)) as [d|] eqn:Ed.
  2:{ apply nth_error_None in Ed. lia. }
  pose proof (ci_branches _ C _ d Ed) as BO. destruct (bo_hist _ _ _ _ BO) as (h & Hh & Hhj).
  destruct (reachable_inv d (bhist_reachable _ _ Hh)) as (c & I).
  destruct (bo_run _ _ _ _ BO w j Hin eq_refl) as (e & Ha & El). rewrite Hl0 in El.
  pose proof (active_nfind _ _ _ _ I Ha) as Hf.
  pose proof (bo_zeros _ _ _ _ BO) as BZ. rewrite Hst in BZ. destruct BZ as [BZ1 BZ2].
  assert (Hez : In e (zeros d)).
  { unfold zeros, handedOut. apply filter_In. split; [|apply Z.eqb_eq; auto]. apply in_or_app; right.
    apply in_map_iff. exists (j_ID j, e). auto. }
  pose proof (BZ2 e Hez) as Elo.
  assert (Hz1 : zeros d = [e]).
  { destruct (zeros d) as [|z1 [|z2 zz]]; [destruct Hez| |cbn in BZ1; lia]. destruct Hez as [->|[]]; auto. }
  (* the start time *)
  pose proof (inv_rep _ _ I) as HR. pose proof HR as (R1&R2&R3&R4&R5&R6&R7&R8).
  destruct (sim_same d (fst (jobStartTime d (j_ID j))) c I) as (I1 & Ez1 & E01 & Et1 & Es1 & Elv1 & Ex1 & EID1 & EJ1 & EQ1 & Edt1 & Eta1).
  { unfold jobStartTime. rewrite (readJob_known _ _ _ Hf). apply readTime_sim. }
  assert (Etime : snd (jobStartTime d (j_ID j)) = last (times d) 0).
  { unfold jobStartTime. rewrite (readJob_known _ _ _ Hf). change (timeAt d (seg_lo e) = last (times d) 0).
    rewrite Elo, R1. rewrite (times_eq _ _ HR). pose proof (inv_ne _ _ I) as Hne.
    destruct c as [|p0 c0] eqn:Ec; [contradiction|]. rewrite <- Ec in *.
    rewrite (last_map_nonempty px c p0 0 Hne), (last_map_nonempty pt c p0 0 Hne).
    apply (timeAt_val _ _ _ HR). apply last_In. auto. }
  set (d1 := fst (jobStartTime d (j_ID j))) in *.
  assert (Ha1 : active d1 (j_ID j) e) by (unfold active; rewrite EJ1; exact Ha).
  assert (exists s sr, ss = s :: sr) as (s & sr & Ess).
  { destruct ss as [|s sr]; [destruct bif; discriminate|]. eauto. }
  pose proof (inv_rep _ _ I1) as HR1. pose proof HR1 as (_&R2'&_).
  destruct (appendData_total d1 c (last (times d) 0 + dist) s false I1) as (d2 & Ed2).
  { rewrite R2', <- (times_eq _ _ HR). lra. }
  destruct (extend_effect d1 d2 c (j_ID j) e _ s I1 Ha1 El Ed2) as ((c3 & I3) & Et3 & Es3 & E03 & EID3 & EJ3 & Elz & Hincl & Edt3).
  set (d3 := finishJob d2 (j_ID j)) in *.
  assert (Ez3 : zeros d3 = []).
  { rewrite Ez1, Hz1 in Elz. apply length_zero_iff_nil. injection Elz as Elz. auto. }
  assert (Eq3 : d_queue d3 <> []).
  { destruct (appendData_inv _ _ _ _ _ _ I1 Ed2) as (p & x & y & _ & _ & _ & _ & _ & _ & _ & _ & _ & _ & _ & _ & _ & _ & _ & EQ).
    unfold d3, finishJob. cbn [d_queue with_jobs]. rewrite EQ. unfold push. destruct (d_queue d1); discriminate. }
  assert (Hh1 : bhist d1 (h ++ [(CStartQuery (j_ID j), ONone)])).
  { eapply bhist_step; eauto; [cbn; eauto|]. cbn [exec]. unfold jobLevel. rewrite (readJob_known _ _ _ Hf). reflexivity. }
  assert (Hh3 : bhist d3 (h ++ [(CStartQuery (j_ID j), ONone); (CAppendData (last (times d) 0 + dist) s false, ONone); (CFinish (j_ID j), ONone)])).
  { assert (Hh2 : bhist d2 ((h ++ [(CStartQuery (j_ID j), ONone)]) ++ [(CAppendData (last (times d) 0 + dist) s false, ONone)])).
    { eapply bhist_step; eauto; [exact Logic.I|]. cbn [exec]. rewrite Ed2. reflexivity. }
    assert (Hh3 : bhist d3 (((h ++ [(CStartQuery (j_ID j), ONone)]) ++ [(CAppendData (last (times d) 0 + dist) s false, ONone)]) ++ [(CFinish (j_ID j), ONone)])).
    { eapply bhist_step; eauto; exact Logic.I. }
    rewrite <- !app_assoc in Hh3. exact Hh3. }
  destruct (ci_K _ C Hst) as [K1 K2]. destruct (K2 _ _ Ed) as (k & Hk & Hk1 & Hk2 & Hk3 & Hk4).
  assert (Hk3' : (k <= maxInit)%Z) by (apply Hk3; rewrite Hz1; discriminate).
  assert (Hbk : (j_branch j < length (mn_K m))%nat) by lia.
  assert (NDw : NoDup (map fst (mn_running m))).
  { pose proof (ci_workers _ C) as ND. clear -ND. induction (mn_workers m); auto. inversion ND; auto. }
  destruct (dropRunning_spec w j _ NDw Hin) as [_ F].
  assert (RU : receive st m w (AInit dist ss bif) =
    do (c, K) <-
      (let K := setK (mn_K m) (j_branch j) (k + 1)%Z in
       if (k <? st_Nsteps st - 1)%Z then
         if negb bif then
           match ss with
           | [_] =>
             do d <- appendPoint d3 true;
             let d := if negb (Nat.eqb (j_branch j) 0) && Nat.eqb (j_ID j) 0
                      then setLength d (getLength d / st_bifMult st) else d in
             Ok (setBranch (mn_data m) (j_branch j) d, K)
           | _ => Fail EAssert
           end
         else
           match ss with
           | [_; s1] =>
             let '(c, b') := cAdd (setBranch (mn_data m) (j_branch j) d3) (st_dataEmpty st) in
             do d' <- addStartPoint (st_dataEmpty st) 0 s1 true;
             Ok (setBranch c b' (setLength d' (st_newLength st)), K ++ [1%Z])
           | _ => Fail EAssert
           end
       else Ok (setBranch (mn_data m) (j_branch j) d3, K));
    Ok (mkMain c (mn_it m) (mn_njobs m - 1) (mn_workers m ++ [w]) K
               (dropRunning w (mn_running m)) (mn_sent m) (mn_done m ++ [(w, j)]))).
  { unfold receive, runningJob. rewrite F. unfold branch. rewrite Ed. cbn [rbind]. rewrite Hst.
    assert (EL : jobLevel d (j_ID j) = (d, 0%Z)).
    { unfold jobLevel. rewrite (readJob_known _ _ _ Hf). f_equal. exact El. }
    rewrite EL. cbn match. rewrite (setBranch_id _ _ _ Ed). unfold receiveInit, branch. rewrite Ed. cbn [rbind].
    rewrite (surjective_pairing (jobStartTime d (j_ID j))). fold d1. rewrite Etime. rewrite Ess at 1. cbn [rbind].
    rewrite Ed2. cbn [rbind]. fold d3. unfold readK. rewrite Hk. cbn [rbind]. reflexivity. }
  assert (EJ3' : d_jobs d3 = nerase (j_ID j) (d_jobs d)) by (rewrite EJ3, EJ1; auto).
  assert (EID3' : d_ID d3 = d_ID d) by congruence.
  rewrite E01 in E03. rewrite Et1 in Et3. rewrite Es1 in Es3.
  assert (Hk0 : (k <? st_Nsteps st - 1)%Z = false -> k = maxInit).
  { intros H. apply Z.ltb_ge in H. unfold maxInit in *. lia. }
  rewrite RU. clear RU. cbv zeta. destruct (k <? st_Nsteps st - 1)%Z eqn:Ek; [destruct bif; cbn [negb andb]|].
  - (* bifurcation: a new branch *)
    destruct sr as [|s1 [|s2 sr]]; try (subst ss; cbn in Hss; discriminate). rewrite Ess.
    unfold cAdd. rewrite Hempty. destruct (newStart_ok s1 true) as (dn & En & Hcn & HJn & HZn & HXn & HLn & HIn).
    rewrite En. cbn [rbind]. rewrite setBranch_app_last.
    eexists. split; [reflexivity|]. cbn [mn_it mn_workers mn_K mn_running mn_sent mn_done mn_data].
    split.
    { apply (receive_frame m w j d d3); auto.
      - exists h, [(CStartQuery (j_ID j), ONone); (CAppendData (last (times d) 0 + dist) s false, ONone); (CFinish (j_ID j), ONone)].
        split; auto.
      - rewrite Hst, Ez3. split; [cbn; lia|]. intros e' [].
      - intros n [<-|[]]. split; [exists ([] ++ [(CSetLength (st_newLength st), ONone)])|split; [exact HJn|rewrite Hst]].
        + eapply (bhist_step dn); [exists ml, tol, dn; split; [auto|constructor]|exact Logic.I|reflexivity].
        + change (zeros (setLength dn (st_newLength st))) with (zeros dn).
          change (d_xi (setLength dn (st_newLength st))) with (d_xi dn). rewrite HZn, HXn. cbn.
          split; auto. intros e' [<-|[]]. reflexivity.
      - intros _. split; [rewrite !app_length, setK_length; cbn; lia|].
        intros b x Hx. destruct (Nat.lt_ge_cases b (length (mn_data m))) as [Hbl|Hbl].
        + rewrite nth_error_app1 in Hx by (rewrite setBranch_length; auto).
          rewrite nth_error_app1 by (rewrite setK_length; lia).
          destruct (Nat.eq_dec (j_branch j) b) as [<-|Hne].
          * rewrite setBranch_same in Hx by auto. injection Hx as <-. rewrite setK_same by auto.
            eexists; split; [reflexivity|]. unfold k_ok. rewrite E03, Ez3.
            split; [lia|]. split; [lia|]. split; [congruence|]. intros Hn. specialize (Hnb Hn). discriminate.
          * rewrite setBranch_other in Hx by auto. rewrite setK_other by auto. eauto.
        + rewrite nth_error_app2 in Hx by (rewrite setBranch_length; auto). rewrite setBranch_length in Hx.
          rewrite nth_error_app2 by (rewrite setK_length; lia). rewrite setK_length, K1.
          destruct (b - length (mn_data m))%nat as [|bb]; [|destruct bb; discriminate].
          cbn in Hx. injection Hx as <-. exists 1%Z. split; auto. unfold k_ok.
          change (zeros (setLength dn (st_newLength st))) with (zeros dn).
          destruct (created_inv _ _ _ Hcn) as (cn & In').
          destruct (setLength_effect dn cn (st_newLength st) In') as (_ & -> & _). rewrite HLn, HZn.
          split; [reflexivity|]. split; [unfold maxInit; lia|]. split; [unfold maxInit; lia|discriminate]. }
    do 6 (split; [reflexivity|]). exists k. split; [auto|]. cbv zeta. rewrite Ek.
    split; [rewrite app_length, setBranch_length; cbn; lia|]. split; [reflexivity|].
    split; [intros b' Hne Hlt; rewrite nth_error_app1 by (rewrite setBranch_length; auto); apply setBranch_other; congruence|].
    split.
    + exists d, d3, s. split; auto. split; [|split; [reflexivity|split; [split; auto|split; auto]]].
      * rewrite nth_error_app1 by (rewrite setBranch_length; auto). apply setBranch_same; auto.
      * unfold isEmpty. destruct (d_queue d3); [contradiction|reflexivity].
    + intros _. exists (setLength dn (st_newLength st)), s1.
      rewrite nth_error_app2 by (rewrite setBranch_length; auto). rewrite setBranch_length, Nat.sub_diag.
      destruct (created_start_inv _ _ _ _ _ En) as (In' & _). pose proof (inv_rep _ _ In') as HRn.
      destruct (setLength_effect dn _ (st_newLength st) In') as (_ & _ & -> & -> & _).
      rewrite (times_eq _ _ HRn), (sols_eq _ _ HRn). repeat split; reflexivity.
  - (* next initiation on the same branch *)
    destruct sr as [|s1 sr]; [|subst ss; cbn in Hss; discriminate]. rewrite Ess.
    assert (exists d4, appendPoint d3 true = Ok d4) as (d4 & Ed4).
    { unfold appendPoint. pose proof (inv_rep _ _ I3) as (R31&_). pose proof (inv_ne _ _ I3).
      destruct (d_xi d3); [|eauto]. destruct c3; [contradiction|discriminate]. }
    rewrite Ed4. cbn [rbind].
    destruct (appendPoint_effect d3 d4 c3 true I3 Ed4) as (I4 & EJ4 & EID4 & Ex4 & E04 & Et4 & Es4 & EZ4).
    rewrite Ez3 in EZ4. apply Permutation_sym, Permutation_length_1_inv in EZ4.
    set (d5 := if negb (Nat.eqb (j_branch j) 0) && Nat.eqb (j_ID j) 0
                      then setLength d4 (getLength d4 / st_bifMult st) else d4).
    assert (Q5 : zeros d5 = zeros d4 /\ lev0 d5 = lev0 d4 /\ d_jobs d5 = d_jobs d4 /\ d_ID d5 = d_ID d4 /\
                 d_xi d5 = d_xi d4 /\ times d5 = times d4 /\ sols d5 = sols d4).
    { destruct (setLength_effect d4 c3 (getLength d4 / st_bifMult st) I4) as (_ & Q1 & Q2 & Q3 & _).
      unfold d5. destruct (negb (Nat.eqb (j_branch j) 0) && Nat.eqb (j_ID j) 0); repeat split; auto. }
    destruct Q5 as (EZ5 & E05 & EJ5 & EID5 & Ex5 & Et5 & Es5).
    eexists. split; [reflexivity|]. cbn [mn_it mn_workers mn_K mn_running mn_sent mn_done mn_data].
    split.
    { rewrite <- (app_nil_r (setBranch _ _ _)). apply (receive_frame m w j d d5); auto; try congruence.
      - assert (Hh4 := bhist_step _ _ (CAppendPoint true) ONone d4 Hh3 Logic.I). cbn [exec] in Hh4. rewrite Ed4 in Hh4.
        specialize (Hh4 eq_refl). rewrite <- app_assoc in Hh4. cbn [app] in Hh4.
        unfold d5. destruct (negb (Nat.eqb (j_branch j) 0) && Nat.eqb (j_ID j) 0).
        + assert (Hh5 := bhist_step _ _ (CSetLength (getLength d4 / st_bifMult st)) ONone _ Hh4 Logic.I eq_refl).
          rewrite <- app_assoc in Hh5. exists h. eexists. split; eauto.
        + exists h. eexists. split; eauto.
      - rewrite Hst, EZ5, EZ4, Ex5, Ex4. cbn. split; auto. intros e' [<-|[]]. reflexivity.
      - intros n [].
      - intros _. rewrite !app_nil_r. split; [rewrite setK_length; auto|].
        intros b x Hx. destruct (Nat.eq_dec (j_branch j) b) as [<-|Hne].
        + rewrite setBranch_same in Hx by auto. injection Hx as <-. rewrite setK_same by auto.
          eexists; split; [reflexivity|]. unfold k_ok. rewrite E05, E04, E03, EZ5, EZ4.
          apply Z.ltb_lt in Ek. split; [lia|]. split; [unfold maxInit; lia|].
          split; [unfold maxInit; lia|discriminate].
        + rewrite setBranch_other in Hx by auto. rewrite setK_other by auto. eauto. }
    rewrite setBranch_length. do 6 (split; [reflexivity|]). exists k. split; [auto|]. cbv zeta.
    split; [lia|]. split; [rewrite app_nil_r; reflexivity|].
    split; [intros b' Hne Hlt; apply setBranch_other; congruence|]. split; [|discriminate].
    exists d, d5, s. split; auto. split; [apply setBranch_same; auto|]. split; [reflexivity|].
    split; [split; congruence|]. split; [|discriminate].
    assert (EQ5 : d_queue d5 = d_queue d4) by (unfold d5; destruct (negb (Nat.eqb (j_branch j) 0) && Nat.eqb (j_ID j) 0); reflexivity).
    destruct (appendPoint_inv d3 c3 true d4 I3 Ed4) as (_ & _ & _ & EQ4).
    unfold isEmpty. rewrite EQ5, EQ4. reflexivity.
  - (* enough steps *)
    cbn [rbind].
    eexists. split; [reflexivity|]. cbn [mn_it mn_workers mn_K mn_running mn_sent mn_done mn_data].
    split.
    { rewrite <- (app_nil_r (setBranch _ _ _)). apply (receive_frame m w j d d3); auto.
      - exists h. eexists. split; eauto.
      - rewrite Hst, Ez3. split; [cbn; lia|]. intros e' [].
      - intros n [].
      - intros _. rewrite !app_nil_r. split; [rewrite setK_length; auto|].
        intros b x Hx. destruct (Nat.eq_dec (j_branch j) b) as [<-|Hne].
        + rewrite setBranch_same in Hx by auto. injection Hx as <-. rewrite setK_same by auto.
          eexists; split; [reflexivity|]. unfold k_ok. rewrite E03, Ez3. specialize (Hk0 eq_refl).
          split; [lia|]. split; [lia|]. split; [congruence|]. intros; lia.
        + rewrite setBranch_other in Hx by auto. rewrite setK_other by auto. eauto. }
    rewrite setBranch_length. do 6 (split; [reflexivity|]). exists k. split; [auto|]. cbv zeta. rewrite Ek.
    replace (bif && false) with false by (destruct bif; auto).
    split; [lia|]. split; [rewrite app_nil_r; reflexivity|].
    split; [intros b' Hne Hlt; apply setBranch_other; congruence|]. split; [|discriminate].
    exists d, d3, s. split; auto. split; [apply setBranch_same; auto|]. split; [rewrite Ess; reflexivity|].
    split; [split; auto|]. split; [|discriminate].
    unfold isEmpty. destruct (d_queue d3); [contradiction|reflexivity].
Qed.
End Main.
