(** Executions of the drivers of gsAPALM (src/gsALMSolvers/gsAPALM.hpp): all orders in which
    the workers may answer, and the loops on one process. *)
From Verif Require Import Prelude APALMData APALMDataProofs APALMDataInv APALMSpec APALMHist
  APALMDataEx APALMDriver APALMSched.
From Coq Require Import Permutation.
Local Open Scope R_scope.

Section Exec.
Context {sol : Type}.
Notation data := (data sol).
Notation main := (main sol).
Notation job := (job sol).
Notation answer := (answer sol).
Variable st : settings sol.

(** What a worker may answer to a job: to an initiation a positive distance with one
    solution, or two if it found a bifurcation (gsAPALM.hpp l.994-1004); to a correction one
    more distance than solutions, all positive, that cover the segment up to the tolerance
    of submit. *)
Definition acceptable (j : job) (a : answer) : Prop :=
  match j_info j, a with
  | JInit _, AInit dist ss bif => 0 < dist /\ length ss = (if bif then 2 else 1)%nat
  | JCorr _ _, ACorr ds ss up lo =>
      length ds = S (length ss) /\ Forall (fun x => 0 < x) ds /\
      (j_dt j - Rsum (removelast ds)) / j_dt j < 1 / 10 ^ 12
  | _, _ => False
  end.
Definition bifurcates (a : answer) : bool := match a with AInit _ _ bif => bif | _ => false end.

(** The container with which the driver starts: solve (on a fresh object) makes one branch
    from one start point; parallelSolve takes any branches without active jobs and without
    pending initiations, for example those made by serialSolve. *)
Definition prepared (c : list data) : Prop :=
  (exists ml tol, st_dataEmpty st = newData ml tol) /\
  if st_solve st then exists s dL, addStarts st [] [(s, dL)] = Ok c
  else Forall (fun d => reachable d /\ handedOut d = [] /\ Forall correction (waiting d)) c.

(** [execution m0 tr m]: from [m0], main received the answers of [tr] in this order and is
    then in state [m]. Each entry: the worker, its job and its answer. *)
Inductive execution (m0 : main) : list (nat * job * answer) -> main -> Prop :=
| ex_nil : execution m0 [] m0
| ex_snoc tr m w j a m' :
    execution m0 tr m -> In (w, j) (mn_running m) -> acceptable j a ->
    round st m w a = Ok m' -> execution m0 (tr ++ [(w, j, a)]) m'.

Lemma valid_acceptable (nobif : Prop) j a :
  acceptable j a -> (nobif -> bifurcates a = false) -> valid_answer nobif j a.
Proof. unfold acceptable, valid_answer. destruct (j_info j), a; cbn; tauto. Qed.

Section Nobif.
Variable nobif : Prop.

Lemma prepared_inv c W : prepared c -> NoDup W -> CInv st nobif (mkMain c 0 0 W [1%Z] [] [] []).
Proof.
  intros [(ml & tol & He) Hp] ND. destruct (st_solve st) eqn:Hst.
  - destruct Hp as (s & dL & Hp). cbn in Hp. rewrite He in Hp.
    destruct (newStart_ok ml tol s false) as (d & Ed & Hc & HJ & HZ & HX & HL & HI). rewrite Ed in Hp.
    cbn [rbind] in Hp. injection Hp as <-.
    destruct (created_inv _ _ _ Hc) as (c0 & I0). destruct (setLength_effect d c0 dL I0) as (I1 & E0 & _).
    constructor; cbn [mn_it mn_workers mn_K mn_running mn_sent mn_done mn_data mn_njobs]; auto.
    + constructor.
    + rewrite app_nil_r. auto.
    + intros [|b] d' Hd; [|destruct b; discriminate]. cbn in Hd. injection Hd as <-. constructor.
      * exists ([] ++ [(CSetLength dL, ONone)]). split; [|intros ? ? []].
        eapply (bhist_step d); [exists ml, tol, d; split; [auto|constructor]|exact Logic.I|reflexivity].
      * intros id e Ha. unfold active in Ha. cbn in Ha. rewrite HJ in Ha. contradiction.
      * intros ? ? [].
      * intros ? ? [].
      * rewrite Hst. change (zeros (setLength d dL)) with (zeros d).
        change (d_xi (setLength d dL)) with (d_xi d). rewrite HZ, HX. split; [cbn; lia|].
        intros e [<-|[]]. reflexivity.
    + intros ? ? [].
    + intros ? ? [].
    + intros _. split; auto. intros [|b] d' Hd; [|destruct b; discriminate]. cbn in Hd. injection Hd as <-.
      exists 1%Z. split; auto. unfold k_ok. rewrite E0, HL. change (zeros (setLength d dL)) with (zeros d).
      rewrite HZ. split; auto. unfold maxInit. split; [lia|]. split; [lia|discriminate].
  - constructor; cbn [mn_it mn_workers mn_K mn_running mn_sent mn_done mn_data mn_njobs]; auto.
    + constructor.
    + rewrite app_nil_r. auto.
    + intros b d Hd. rewrite Forall_forall in Hp. destruct (Hp d (nth_error_In _ _ Hd)) as (HR & Ho & Hw).
      constructor.
      * destruct HR as (ml' & tol' & d0 & h & Hc & Hh). exists h. split; [exists ml', tol', d0; auto|intros ? ? []].
      * intros id e Ha. unfold active in Ha. unfold handedOut in Ho. destruct (d_jobs d); [contradiction|discriminate].
      * intros ? ? [].
      * intros ? ? [].
      * rewrite Hst. unfold zeros. rewrite Ho, app_nil_r. clear -Hw.
        induction Hw as [|e l He Hl IH]; auto. cbn [filter].
        destruct (seg_lev e =? 0)%Z eqn:E; auto. apply Z.eqb_eq in E. unfold correction in He. lia.
    + intros ? ? [].
    + intros ? ? [].
    + congruence.
Qed.

Definition pool (m : main) : list nat := mn_workers m ++ map fst (mn_running m).

Lemma canDispatch_true m : canDispatch st m = true ->
  cEmpty (mn_data m) = false /\ (mn_it m < st_maxIt st)%nat /\ exists w ws, mn_workers m = w :: ws.
Proof.
  unfold canDispatch. intros H. apply andb_true_iff in H as [H H3]. apply andb_true_iff in H as [H1 H2].
  apply negb_true_iff in H1. apply Nat.ltb_lt in H2. destruct (mn_workers m); [discriminate|eauto].
Qed.

Lemma dispatchLoop_ok fuel : forall m, CInv st nobif m -> (length (mn_workers m) <= fuel)%nat ->
  (mn_it m <= st_maxIt st)%nat ->
  exists m' js, dispatchLoop st fuel m = Ok m' /\ CInv st nobif m' /\ (mn_it m' <= st_maxIt st)%nat /\
    canDispatch st m' = false /\ mn_done m' = mn_done m /\ Permutation (pool m') (pool m) /\
    mn_sent m' = mn_sent m ++ js /\ mn_running m' = mn_running m ++ js /\
    mn_it m' = (mn_it m + length js)%nat /\ length (mn_data m') = length (mn_data m) /\
    (forall b d, nth_error (mn_data m) b = Some d -> exists d', nth_error (mn_data m') b = Some d' /\
        times d' = times d /\ sols d' = sols d).
Proof.
  induction fuel as [|f IH]; intros m C Hf Hit.
  - exists m, []. cbn [dispatchLoop]. destruct (canDispatch st m) eqn:E.
    + apply canDispatch_true in E as (_ & _ & w & ws & E). rewrite E in Hf. cbn in Hf. lia.
    + rewrite !app_nil_r, Nat.add_0_r. do 10 (split; [auto|]). intros b d H; exists d; auto.
  - cbn [dispatchLoop]. destruct (canDispatch st m) eqn:E.
    + apply canDispatch_true in E as (E1 & E2 & w & ws & E3).
      destruct (dispatch_ok st nobif m w ws C E1 E3) as
        (m1 & j & D & C1 & I1 & W1 & K1 & R1 & S1 & D1 & N1 & L1 & B1 & F1 & dd & dd' & e & q & X1 & X2 & X3 & X4 & X5 & X6 & X7 & X8).
      rewrite D. cbn [rbind].
      destruct (IH m1 C1) as (m' & js & H1 & H2 & H3 & H4 & H5 & H6 & H7 & H8 & H9 & H10 & H11).
      { rewrite W1. rewrite E3 in Hf. cbn in Hf. lia. }
      { lia. }
      exists m', ((w, j) :: js). split; auto. split; auto. split; auto. split; auto. split; [congruence|].
      split. { rewrite H6. unfold pool. rewrite W1, R1, E3, map_app. cbn [map fst]. rewrite app_assoc.
               symmetry. apply Permutation_cons_append. }
      split; [rewrite H7, S1, <- app_assoc; auto|]. split; [rewrite H8, R1, <- app_assoc; auto|].
      split; [cbn; lia|]. split; [congruence|].
      intros b d Hb. destruct (Nat.eq_dec b (j_branch j)) as [->|Hne].
      * destruct (H11 _ _ X3) as (d' & Y1 & Y2 & Y3). exists d'. split; auto.
        assert (dd = d) by congruence. subst. split; congruence.
      * apply H11. rewrite B1; auto.
    + exists m, []. rewrite !app_nil_r, Nat.add_0_r. do 10 (split; [auto|]). intros b d H; exists d; auto.
Qed.

Lemma receive_ok m w j a : (exists ml tol, st_dataEmpty st = newData ml tol) -> CInv st nobif m ->
  In (w, j) (mn_running m) -> acceptable j a -> (nobif -> bifurcates a = false) ->
  exists m', receive st m w a = Ok m' /\ CInv st nobif m' /\ mn_it m' = mn_it m /\
    mn_workers m' = mn_workers m ++ [w] /\ mn_running m' = dropRunning w (mn_running m) /\
    mn_sent m' = mn_sent m /\ mn_done m' = mn_done m ++ [(w, j)].
Proof.
  intros (ml & tol & He) C Hin Ha Hb. unfold acceptable in Ha.
  destruct (j_info j) as [t0|iv r] eqn:Ei, a as [ds ss up lo|dist ss bif]; try contradiction.
  - destruct Ha as [H1 H2].
    destruct (receive_init_ok st ml tol He nobif m w j t0 dist ss bif C Hin Ei H1 H2 Hb)
      as (m' & E1 & E2 & E3 & E4 & E5 & E6 & E7 & _). exists m'. auto 10.
  - destruct Ha as (H1 & H2 & H3).
    destruct (receive_corr_ok st nobif m w j iv r ds ss up lo C Hin Ei H1 H2 H3)
      as (m' & E1 & E2 & E3 & E4 & E5 & E6 & E7 & _). exists m'. auto 10.
Qed.

Lemma pool_receive m m' w j : CInv st nobif m -> In (w, j) (mn_running m) ->
  mn_workers m' = mn_workers m ++ [w] -> mn_running m' = dropRunning w (mn_running m) ->
  Permutation (pool m') (pool m).
Proof.
  intros C Hin E1 E2. unfold pool. rewrite E1, E2, <- app_assoc. apply Permutation_app_head. cbn [app].
  assert (NDw : NoDup (map fst (mn_running m))).
  { pose proof (ci_workers _ _ _ C) as ND. clear -ND. induction (mn_workers m); auto. inversion ND; auto. }
  destruct (dropRunning_spec w j _ NDw Hin) as [P _]. rewrite P at 2. reflexivity.
Qed.

Record EInv (P : nat) (tr : list (nat * job * answer)) (m : main) : Prop := mkEI {
  ei_core : CInv st nobif m;
  ei_it : (mn_it m <= st_maxIt st)%nat;
  ei_sent : mn_it m = length (mn_sent m);
  ei_idle : canDispatch st m = false;
  ei_pool : Permutation (pool m) (seq 1 (P - 1));
  ei_done : mn_done m = map fst tr
}.

Lemma start_ok P c : prepared c -> exists m0, startMain st [] P c = Ok m0 /\ EInv P [] m0.
Proof.
  intros Hp. unfold startMain, dispatchAll. cbn [app mn_workers].
  destruct (dispatchLoop_ok (length (seq 1 (P - 1))) (mkMain c 0 0 (seq 1 (P - 1)) [1%Z] [] [] []))
    as (m' & js & H1 & H2 & H3 & H4 & H5 & H6 & H7 & H8 & H9 & _).
  - apply prepared_inv; auto. apply seq_NoDup.
  - cbn. lia.
  - cbn. lia.
  - exists m'. split; auto. constructor; auto.
    + rewrite H9, H7. reflexivity.
    + rewrite H6. unfold pool. cbn. rewrite app_nil_r. reflexivity.
Qed.

Lemma round_ok P tr m w j a : (exists ml tol, st_dataEmpty st = newData ml tol) -> EInv P tr m ->
  In (w, j) (mn_running m) -> acceptable j a -> (nobif -> bifurcates a = false) ->
  exists m', round st m w a = Ok m' /\ EInv P (tr ++ [(w, j, a)]) m'.
Proof.
  intros He E Hin Ha Hb. destruct E as [C Hit Hs Hid HP HD].
  destruct (receive_ok m w j a He C Hin Ha Hb) as (m1 & R & C1 & I1 & W1 & U1 & S1 & D1).
  unfold round. rewrite R. cbn [rbind]. unfold dispatchAll.
  destruct (dispatchLoop_ok (length (mn_workers m1)) m1 C1) as (m' & js & H1 & H2 & H3 & H4 & H5 & H6 & H7 & H8 & H9 & _); auto.
  { lia. }
  exists m'. split; auto. constructor; auto.
  - rewrite H9, H7, app_length, I1, S1. lia.
  - rewrite H6, (pool_receive m m1 w j C Hin W1 U1). auto.
  - rewrite H5, D1, HD, map_app. reflexivity.
Qed.

Lemma execution_inv P c m0 tr m : prepared c -> startMain st [] P c = Ok m0 -> execution m0 tr m ->
  (nobif -> Forall (fun x => bifurcates (snd x) = false) tr) -> EInv P tr m.
Proof.
  intros Hp H0 H. destruct (start_ok P c Hp) as (m0' & E0 & I0). rewrite H0 in E0. injection E0 as <-.
  induction H as [|tr m w j a m' H IH Hin Ha Hr]; intros Hb; auto.
  destruct (round_ok P tr m w j a (proj1 Hp)) as (m'' & E & I'); auto.
  - apply IH. intros Hn. specialize (Hb Hn). rewrite Forall_app in Hb. tauto.
  - intros Hn. specialize (Hb Hn). rewrite Forall_app in Hb. destruct Hb as [_ Hb]. inversion Hb; auto.
  - rewrite Hr in E. injection E as <-. auto.
Qed.
End Nobif.

(** corrections are asked for segments of positive length only *)
Definition wellPosed (j : job) : Prop :=
  match j_info j with JCorr _ _ => 0 < j_dt j | JInit _ => True end.
(** a correction job in progress has positive length *)
Lemma running_dt nobif m w j : CInv st nobif m -> In (w, j) (mn_running m) ->
  wellPosed j.
Proof.
  intros C Hin. unfold wellPosed. destruct (j_info j) eqn:Ei; auto.
  pose proof (ci_kinds _ _ _ C _ _ Hin) as Hk. unfold kind_ok in Hk. rewrite Ei in Hk.
  assert (Hsent : In (w, j) (mn_sent m)).
  { eapply Permutation_in; [symmetry; apply (ci_logs _ _ _ C)|]. apply in_or_app; auto. }
  pose proof (ci_range _ _ _ C _ _ Hsent) as Hb. destruct (nth_error (mn_data m) (j_branch j)) as [d|] eqn:Ed.
  2:{ apply nth_error_None in Ed. lia. }
  pose proof (ci_branches _ _ _ C _ d Ed) as BO. destruct (bo_hist _ _ _ _ _ BO) as (h & Hh & Hhj).
  destruct (reachable_inv d (bhist_reachable _ _ Hh)) as (c & I).
  destruct (bo_run _ _ _ _ _ BO w j Hin eq_refl) as (e & Ha & El).
  assert (Hc : correction e) by (unfold correction; lia).
  assert (Hdesc : describes d (j_ID j) e (j_dt j) (j_start j) (j_prev j)).
  { destruct Hh as (ml' & tol' & d0 & Hc0 & Hh). pose proof (Hhj w j Hin eq_refl) as Hi.
    apply in_split in Hi as (h1 & h2 & ->). eapply (popped_job_valid d0); eauto. eapply created_inv; eauto. }
  destruct Hdesc as (_ & _ & _ & Hdt'). specialize (Hdt' Hc).
  assert (Hw : In e (waiting d ++ handedOut d)).
  { apply in_or_app; right. apply (in_map snd _ (j_ID j, e)). exact Ha. }
  destruct (segment_points d c e I Hw Hc) as (pre & a & b & post & Ec & E1 & E2).
  pose proof (inv_rep _ _ I) as HR. pose proof HR as (_&_&_&_&_&_&R7&_).
  rewrite E1, E2, (timeAt_val _ _ a HR), (timeAt_val _ _ b HR) in Hdt'
    by (rewrite Ec; apply in_or_app; right; cbn; auto).
  rewrite Ec, map_app in R7. cbn [map] in R7. rewrite <- Hdt'.
  apply incr_app in R7 as (_ & R7 & _). apply incr_cons in R7 as [_ R7]. specialize (R7 (pt b) (or_introl eq_refl)). lra.
Qed.

(** ** One process *)
Variable work : nat -> job -> answer.
Variable newLen : nat -> R.
Hypothesis Hwork : forall n j, wellPosed j -> acceptable j (work n j).

Lemma CInv_workers nobif m W : CInv st nobif m -> NoDup (W ++ map fst (mn_running m)) ->
  CInv st nobif (mkMain (mn_data m) (mn_it m) (mn_njobs m) W (mn_K m) (mn_running m) (mn_sent m) (mn_done m)).
Proof. intros [] H. constructor; auto. Qed.

Lemma CInv_it nobif m i : CInv st nobif m ->
  CInv st nobif (mkMain (mn_data m) i (mn_njobs m) (mn_workers m) (mn_K m) (mn_running m) (mn_sent m) (mn_done m)).
Proof. intros []. constructor; auto. Qed.

(** the length of a new branch plays no role in the invariant *)
Lemma CInv_len nobif m l : CInv st nobif m <-> CInv (withNewLength st l) nobif m.
Proof. split; intros [? ? ? ? HB ? ? ?]; constructor; auto; intros b d Hd; destruct (HB b d Hd); constructor; auto. Qed.

Fixpoint sumK (K : list Z) : Z := match K with [] => 0 | k :: K' => k - 1 + sumK K' end%Z.
Lemma sumK_app K L : sumK (K ++ L) = (sumK K + sumK L)%Z.
Proof. induction K; cbn; auto. rewrite IHK. lia. Qed.
Lemma sumK_set K b k : nth_error K b = Some k -> sumK (setK K b (k + 1)) = (sumK K + 1)%Z.
Proof.
  revert b. induction K as [|x K IH]; intros [|b] H; cbn in *; try discriminate.
  - injection H as ->. lia.
  - rewrite (IH _ H). lia.
Qed.
Lemma sumK_bound K B : (forall b k, nth_error K b = Some k -> (k <= B + 1)%Z) -> (sumK K <= Z.of_nat (length K) * B)%Z.
Proof.
  induction K as [|x K IH]; intros H; [cbn; lia|]. cbn [sumK length].
  pose proof (H 0%nat x eq_refl). specialize (IH (fun b k Hk => H (S b) k Hk)). lia.
Qed.

(** what one job on one process does to the state *)
Lemma serialJob_ok nobif m countIt : (exists ml tol, st_dataEmpty st = newData ml tol) ->
  CInv st nobif m -> mn_running m = [] -> cEmpty (mn_data m) = false ->
  (nobif -> forall n j, bifurcates (work n j) = false) ->
  exists m' j, serialJob st work newLen m countIt = Ok m' /\ CInv st nobif m' /\ mn_running m' = [] /\
    mn_sent m' = mn_sent m ++ [(0%nat, j)] /\ mn_done m' = mn_done m ++ [(0%nat, j)] /\
    mn_it m' = (if countIt || negb (j_level j =? 0)%Z then S (mn_it m) else mn_it m) /\
    (st_solve st = false -> (1 <= j_level j)%Z) /\
    (forall b d, (b < j_branch j)%nat -> nth_error (mn_data m) b = Some d -> isEmpty d = true) /\
    (j_branch j < length (mn_data m))%nat /\
    (forall b, b <> j_branch j -> (b < length (mn_data m))%nat ->
       nth_error (mn_data m') b = nth_error (mn_data m) b) /\
    exists d d' e q, nth_error (mn_data m) (j_branch j) = Some d /\ nth_error (mn_data m') (j_branch j) = Some d' /\
      d_queue d = e :: q /\ seg_lev e = j_level j /\
    match work (length (mn_done m)) j with
    | ACorr _ _ _ _ => (1 <= j_level j)%Z /\ length (mn_data m') = length (mn_data m) /\ mn_K m' = mn_K m /\
         Permutation (zeros d') (zeros d)
    | AInit _ _ bif => j_level j = 0%Z /\ exists k, nth_error (mn_K m) (j_branch j) = Some k /\
         let new := bif && (k <? st_Nsteps st - 1)%Z in
         length (mn_data m') = (length (mn_data m) + (if new then 1 else 0))%nat /\
         mn_K m' = setK (mn_K m) (j_branch j) (k + 1)%Z ++ (if new then [1%Z] else []) /\
         isEmpty d' = false /\ (new = true -> zeros d' = [])
    end.
Proof.
  intros (ml & tol & He) C Hr0 Hne Hb.
  set (m1 := mkMain (mn_data m) (mn_it m) (mn_njobs m) [0%nat] (mn_K m) (mn_running m) (mn_sent m) (mn_done m)).
  assert (C1 : CInv st nobif m1).
  { apply CInv_workers; auto. rewrite Hr0. cbn. constructor; auto. constructor. }
  destruct (dispatch_ok st nobif m1 0%nat [] C1 Hne eq_refl) as
    (m2 & j & D & C2 & I2 & W2 & K2 & R2 & S2 & D2 & N2 & L2 & B2 & F2 & d & d2 & e & q & X1 & X2 & X3 & X4 & X5 & X6 & X7 & X8).
  cbn [m1 mn_data mn_running mn_sent mn_done mn_it mn_K] in *. rewrite Hr0 in R2. cbn [app] in R2.
  assert (Hin : In (0%nat, j) (mn_running m2)) by (rewrite R2; left; auto).
  pose proof (ci_kinds _ _ _ C2 _ _ Hin) as Hk. unfold kind_ok in Hk.
  pose proof (Hwork (length (mn_done m)) j (running_dt _ _ _ _ C2 Hin)) as Ha. unfold acceptable in Ha.
  set (st' := withNewLength st (newLen (length (mn_done m)))).
  assert (C2' : CInv st' nobif m2) by (apply CInv_len; exact C2).
  unfold serialJob. fold st'. change (mkMain (mn_data m) (mn_it m) (mn_njobs m) [0%nat] (mn_K m) (mn_running m) (mn_sent m) (mn_done m)) with m1.
  rewrite D. cbn [rbind]. rewrite R2.
  assert (Hbl : (j_branch j < length (mn_data m))%nat) by (apply nth_error_Some; congruence).
  assert (Edrop : dropRunning 0 (mn_running m2) = []) by (rewrite R2; reflexivity).
  assert (Hlev : st_solve st = false -> (1 <= j_level j)%Z).
  { intros Hs. destruct (j_info j); [destruct Hk; congruence|auto]. }
  destruct (work (length (mn_done m)) j) as [ds ss up lo|dist ss bif] eqn:Ew;
    destruct (j_info j) as [t0|iv r] eqn:Ei; try contradiction.
  - destruct Ha as (H1 & H2 & H3).
    destruct (receive_corr_ok st' nobif m2 0%nat j iv r ds ss up lo C2' Hin Ei H1 H2 H3)
      as (m3 & E1 & E2 & E3 & E4 & E5 & E6 & E7 & E8 & E9 & E10 & E11 & d2' & d3 & Y1 & Y2 & Y3 & Y4).
    rewrite E1. cbn [rbind]. eexists. exists j. split; [reflexivity|].
    cbn [mn_data mn_running mn_sent mn_done mn_it mn_K].
    assert (d2' = d2) by congruence. subst d2'.
    split. { apply (CInv_workers nobif (mkMain (mn_data m3) _ (mn_njobs m3) (mn_workers m3) (mn_K m3) (mn_running m3) (mn_sent m3) (mn_done m3))).
             - apply CInv_it. apply CInv_len in E2. exact E2.
             - cbn. rewrite E5, Edrop. constructor. }
    split; [congruence|]. split; [congruence|]. split; [congruence|]. split; [reflexivity|].
    split; [auto|]. split; [auto|]. split; [auto|].
    split. { intros b Hb1 Hb2. rewrite E11, B2; auto. }
    exists d, d3, e, q. rewrite Ew. split; auto. split; auto. split; auto. split; [auto|].
    split; [auto|]. split; [congruence|]. split; [congruence|]. rewrite Y4. auto.
  - destruct Ha as (H1 & H2).
    destruct (receive_init_ok st' ml tol He nobif m2 0%nat j t0 dist ss bif C2' Hin Ei H1 H2)
      as (m3 & E1 & E2 & E3 & E4 & E5 & E6 & E7 & E8 & k & Y0 & Y1 & Y2 & Y3 & (d2' & d3 & s & Y4 & Y5 & Y6 & Y7 & Y8 & Y9) & _).
    { intros Hn. specialize (Hb Hn (length (mn_done m)) j). rewrite Ew in Hb. auto. }
    rewrite E1. cbn [rbind]. eexists. exists j. split; [reflexivity|].
    cbn [mn_data mn_running mn_sent mn_done mn_it mn_K].
    assert (d2' = d2) by congruence. subst d2'.
    split. { apply (CInv_workers nobif (mkMain (mn_data m3) _ (mn_njobs m3) (mn_workers m3) (mn_K m3) (mn_running m3) (mn_sent m3) (mn_done m3))).
             - apply CInv_it. apply CInv_len in E2. exact E2.
             - cbn. rewrite E5, Edrop. constructor. }
    split; [congruence|]. split; [congruence|]. split; [congruence|]. split; [reflexivity|].
    split; [auto|]. split; [auto|]. split; [auto|].
    split. { intros b Hb1 Hb2. rewrite Y3, B2; auto. lia. }
    exists d, d3, e, q. rewrite Ew. split; auto. split; auto. split; auto. split; [auto|].
    split; [tauto|]. exists k. rewrite K2 in Y0, Y2. split; auto.
    change (st_Nsteps st') with (st_Nsteps st) in *. cbv zeta in *. split; [congruence|]. auto.
Qed.

(** parallelSolve: every job counts *)
Lemma serial_parallel_ok : st_solve st = false -> forall fuel m,
  (exists ml tol, st_dataEmpty st = newData ml tol) -> CInv st False m -> mn_running m = [] ->
  (st_maxIt st - mn_it m <= fuel)%nat -> mn_it m = length (mn_done m) -> (mn_it m <= st_maxIt st)%nat ->
  exists m', serialLoop st work newLen fuel m = Ok m' /\ CInv st False m' /\ mn_running m' = [] /\
    mn_it m' = length (mn_done m') /\ (mn_it m' <= st_maxIt st)%nat /\
    (cEmpty (mn_data m') = true \/ mn_it m' = st_maxIt st).
Proof.
  intros Hs. induction fuel as [|f IH]; intros m He C Hr Hf Hi Hm.
  - cbn [serialLoop]. replace (mn_it m <? st_maxIt st)%nat with false by (symmetry; apply Nat.ltb_ge; lia).
    rewrite andb_false_r. exists m. repeat (split; [auto; fail|]). right. lia.
  - cbn [serialLoop]. destruct (cEmpty (mn_data m)) eqn:Ee; cbn [negb andb].
    { exists m. repeat (split; [auto; fail|]). left. auto. }
    destruct (mn_it m <? st_maxIt st)%nat eqn:El.
    2:{ apply Nat.ltb_ge in El. exists m. repeat (split; [auto; fail|]). right. lia. }
    apply Nat.ltb_lt in El.
    destruct (serialJob_ok False m (negb (st_solve st)) He C Hr Ee) as (m' & j & H1 & H2 & H3 & H4 & H5 & H6 & _).
    { tauto. }
    rewrite H1. cbn [rbind]. rewrite Hs in H6. cbn [negb orb] in H6. apply IH; auto; try lia.
    rewrite H6, H5, app_length. cbn. lia.
Qed.

(** ** solve on one process
    [SB m cr]: [cr] counts the corrections per branch. *)
Definition SB (m : main) (cr : list nat) : Prop :=
  length cr = length (mn_data m) /\ list_sum cr = mn_it m /\
  (forall b d, nth_error (mn_data m) b = Some d -> (S b < length (mn_data m))%nat ->
     zeros d = [] /\ (isEmpty d = true -> (1 <= nth b cr 0)%nat)).

Fixpoint bump (cr : list nat) (b : nat) : list nat :=
  match cr, b with
  | [], _ => []
  | x :: l, O => S x :: l
  | x :: l, S b' => x :: bump l b'
  end.
Lemma bump_length cr b : length (bump cr b) = length cr.
Proof. revert b. induction cr; intros [|b]; cbn; auto. Qed.
Lemma bump_sum cr b : (b < length cr)%nat -> list_sum (bump cr b) = S (list_sum cr).
Proof. revert b. induction cr as [|x l IH]; intros [|b] H; cbn in *; try lia. unfold list_sum in IH. rewrite IH; lia. Qed.
Lemma bump_nth cr b i : (nth i cr 0 <= nth i (bump cr b) 0)%nat /\ ((b < length cr)%nat -> (1 <= nth b (bump cr b) 0)%nat).
Proof.
  revert b i. induction cr as [|x l IH]; intros b i.
  - destruct b, i; cbn; split; intros; lia.
  - destruct b as [|b]; [destruct i; cbn; split; intros; lia|]. split.
    + destruct i as [|i]; cbn; [lia|]. apply (IH b i).
    + cbn. intros H. apply (IH b 0%nat). lia.
Qed.
Lemma sum_ge cr : forall n, (n <= length cr)%nat -> (forall i, (i < n)%nat -> (1 <= nth i cr 0)%nat) -> (n <= list_sum cr)%nat.
Proof.
  induction cr as [|x l IH]; intros [|n] Hn H; cbn in *; try lia.
  pose proof (H 0%nat ltac:(lia)). cbn in H0. specialize (IH n ltac:(lia) (fun i Hi => H (S i) ltac:(lia))).
  unfold list_sum in IH. lia.
Qed.

Definition stepBound : nat := (st_maxIt st + (st_maxIt st + 1) * Z.to_nat (maxInit st))%nat.

Lemma serial_solve_ok (nobif : Prop) : st_solve st = true -> (nobif -> forall n j, bifurcates (work n j) = false) ->
  forall fuel m cr,
  (exists ml tol, st_dataEmpty st = newData ml tol) -> CInv st nobif m -> mn_running m = [] ->
  SB m cr -> (length (mn_data m) <= S (st_maxIt st))%nat -> (mn_it m <= st_maxIt st)%nat ->
  Z.of_nat (length (mn_done m)) = (Z.of_nat (mn_it m) + sumK (mn_K m))%Z ->
  (S stepBound - length (mn_done m) <= fuel)%nat ->
  exists m', serialLoop st work newLen fuel m = Ok m' /\ CInv st nobif m' /\ mn_running m' = [] /\
    (length (mn_done m') <= stepBound)%nat /\
    (mn_it m' <= st_maxIt st)%nat /\ (cEmpty (mn_data m') = true \/ mn_it m' = st_maxIt st).
Proof.
  intros Hs Hnb. induction fuel as [|f IH]; intros m cr He C Hr HS Hl Hi Hd Hf.
  all: assert (Hbound : (length (mn_done m) <= stepBound)%nat).
  1,3: destruct (ci_K _ _ _ C Hs) as [K1 K2];
    assert (HB : (sumK (mn_K m) <= Z.of_nat (length (mn_K m)) * maxInit st)%Z) by
      (apply sumK_bound; intros b k Hk;
       assert (Hb : (b < length (mn_data m))%nat) by (rewrite <- K1; apply nth_error_Some; congruence);
       destruct (nth_error (mn_data m) b) as [d|] eqn:Ed; [|apply nth_error_None in Ed; lia];
       destruct (K2 b d Ed) as (k' & Hk' & _ & Hk2 & _); rewrite Hk in Hk'; injection Hk' as <-; lia);
    assert (0 <= maxInit st)%Z by (unfold maxInit; lia);
    unfold stepBound; rewrite K1 in HB; nia.
  - lia.
  - cbn [serialLoop]. destruct (cEmpty (mn_data m)) eqn:Ee; cbn [negb andb].
    { exists m. repeat (split; [auto; fail|]). left. auto. }
    destruct (mn_it m <? st_maxIt st)%nat eqn:El.
    2:{ apply Nat.ltb_ge in El. exists m. repeat (split; [auto; fail|]). right. lia. }
    apply Nat.ltb_lt in El.
    destruct (serialJob_ok nobif m (negb (st_solve st)) He C Hr Ee Hnb)
      as (m' & j & H1 & H2 & H3 & H4 & H5 & H6 & H7 & H8 & H9 & H10 & d & d' & e & q & X1 & X2 & X3 & X4 & X5).
    rewrite H1. cbn [rbind]. rewrite Hs in H6. cbn [negb orb] in H6.
    destruct HS as (S1 & S2 & S3).
    destruct (work (length (mn_done m)) j) as [ds ss up lo|dist ss bif].
    + destruct X5 as (Y1 & Y2 & Y3 & Y4).
      replace (j_level j =? 0)%Z with false in H6 by (symmetry; apply Z.eqb_neq; lia). cbn [negb] in H6.
      apply (IH m' (bump cr (j_branch j))); auto; try lia.
      * unfold SB. rewrite bump_length, bump_sum by lia. split; [lia|]. split; [lia|].
        intros b x Hx Hb. destruct (Nat.eq_dec b (j_branch j)) as [->|Hne].
        -- assert (x = d') by congruence. subst x. destruct (S3 _ _ X1 ltac:(lia)) as [Z1 Z2].
           split; [rewrite Z1 in Y4; apply Permutation_sym, Permutation_nil in Y4; auto|].
           intros _. apply (proj2 (bump_nth cr (j_branch j) 0)). lia.
        -- rewrite H10 in Hx by lia. destruct (S3 _ _ Hx ltac:(lia)) as [Z1 Z2]. split; auto.
           intros Hb'. specialize (Z2 Hb'). pose proof (proj1 (bump_nth cr (j_branch j) b)). lia.
      * rewrite H5, app_length, Y3, H6. cbn [length]. lia.
      * rewrite H5, app_length. cbn [length]. lia.
    + destruct X5 as (Y1 & k & Y2 & Y3 & Y4 & Y5 & Y6). rewrite Y1 in H6. cbn [Z.eqb negb] in H6.
      (* the branch that continues is the last one, and the ones before it are empty *)
      assert (Hz : zeros d <> []).
      { intros Hz. assert (In e (zeros d)) as Hin; [|rewrite Hz in Hin; contradiction].
        unfold zeros, waiting. rewrite X3. apply filter_In. split; [left; auto|]. apply Z.eqb_eq. congruence. }
      assert (Hlast : S (j_branch j) = length (mn_data m)).
      { destruct (Nat.eq_dec (S (j_branch j)) (length (mn_data m))); auto.
        destruct (S3 _ _ X1 ltac:(lia)) as [Z1 _]. contradiction. }
      assert (Hcr : (j_branch j <= mn_it m)%nat).
      { rewrite <- S2. apply sum_ge; [lia|]. intros i Hi'.
        destruct (nth_error (mn_data m) i) as [x|] eqn:Ex; [|apply nth_error_None in Ex; lia].
        apply (proj2 (S3 i x Ex ltac:(lia))). eapply H8; eauto. }
      set (new := bif && (k <? st_Nsteps st - 1)%Z) in *.
      apply (IH m' (cr ++ if new then [0%nat] else [])); auto.
      * unfold SB. rewrite app_length, list_sum_app, Y3, S1, S2, H6.
        split; [destruct new; reflexivity|]. split; [destruct new; cbn; lia|].
        intros b x Hx Hb. destruct (Nat.eq_dec b (j_branch j)) as [->|Hne].
        -- destruct new eqn:En; [|lia].
           assert (x = d') by congruence. subst x. split; auto. intros; congruence.
        -- assert (b < length (mn_data m))%nat by (destruct new; lia).
           rewrite H10 in Hx by lia. destruct (S3 _ _ Hx ltac:(lia)) as [Z1 Z2]. split; auto.
           intros Hb'. rewrite app_nth1 by lia. auto.
      * rewrite Y3. destruct new; lia.
      * lia.
      * rewrite H5, app_length, Y4, sumK_app, (sumK_set _ _ _ Y2), H6. cbn [length].
        replace (sumK (if new then [1%Z] else [])) with 0%Z by (destruct new; reflexivity). lia.
      * rewrite H5, app_length. cbn [length]. lia.
Qed.
End Exec.
