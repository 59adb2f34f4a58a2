(** More about executions: stored solutions stay, executions can be completed, and two
    lemmas used for the counterexamples. *)
From Verif Require Import Prelude APALMData APALMDataProofs APALMDataInv APALMSpec APALMHist
  APALMDataEx APALMDriver APALMSched APALMExec.
From Coq Require Import Permutation.
Local Open Scope R_scope.

(** [subseq l l']: l is obtained from l' by leaving out elements *)
Inductive subseq {A} : list A -> list A -> Prop :=
| sub_nil : subseq [] []
| sub_keep x l l' : subseq l l' -> subseq (x :: l) (x :: l')
| sub_skip x l l' : subseq l l' -> subseq l (x :: l').

Lemma subseq_refl {A} (l : list A) : subseq l l.
Proof. induction l; constructor; auto. Qed.
Lemma subseq_nil {A} (l : list A) : subseq [] l.
Proof. induction l; constructor; auto. Qed.
Lemma subseq_trans {A} (l1 l2 l3 : list A) : subseq l1 l2 -> subseq l2 l3 -> subseq l1 l3.
Proof.
  intros H1 H2. revert l1 H1. induction H2 as [|x l l' H IH|x l l' H IH]; intros l1 H1; auto.
  - inversion H1; subst; constructor; auto.
  - constructor; auto.
Qed.
Lemma subseq_app {A} (a b a' b' : list A) : subseq a a' -> subseq b b' -> subseq (a ++ b) (a' ++ b').
Proof. induction 1; cbn; intros; auto; constructor; auto. Qed.

Section Lemmas.
Context {sol : Type}.
Notation data := (data sol).
Notation main := (main sol).
Notation job := (job sol).
Notation answer := (answer sol).
Variable st : settings sol.

(** every branch of [m] is still there in [m'] and keeps its solutions in order *)
Definition keeps (m m' : main) : Prop :=
  forall b d, nth_error (mn_data m) b = Some d ->
  exists d', nth_error (mn_data m') b = Some d' /\ subseq (sols d) (sols d').
Lemma keeps_trans m1 m2 m3 : keeps m1 m2 -> keeps m2 m3 -> keeps m1 m3.
Proof.
  intros H1 H2 b d Hd. destruct (H1 b d Hd) as (d2 & E2 & S2). destruct (H2 b d2 E2) as (d3 & E3 & S3).
  exists d3. split; auto. eapply subseq_trans; eauto.
Qed.
Lemma keeps_refl m : keeps m m.
Proof. intros b d H. exists d. split; auto. apply subseq_refl. Qed.

Lemma branch_reachable nobif m b d : CInv st nobif m -> nth_error (mn_data m) b = Some d -> reachable d.
Proof.
  intros C H. destruct (bo_hist _ _ _ _ _ (ci_branches _ _ _ C b d H)) as (h & Hh & _).
  eapply bhist_reachable; eauto.
Qed.

Lemma receive_keeps nobif m w j a m' : (exists ml tol, st_dataEmpty st = newData ml tol) -> CInv st nobif m ->
  In (w, j) (mn_running m) -> acceptable j a -> (nobif -> bifurcates a = false) ->
  receive st m w a = Ok m' -> keeps m m'.
Proof.
  intros (ml & tol & He) C Hin Ha Hb HR. unfold acceptable in Ha.
  destruct (j_info j) as [t0|iv r] eqn:Ei, a as [ds ss up lo|dist ss bif]; try contradiction.
  - destruct Ha as [H1 H2].
    destruct (receive_init_ok st ml tol He nobif m w j t0 dist ss bif C Hin Ei H1 H2 Hb)
      as (m1 & E1 & E2 & E3 & E4 & E5 & E6 & E7 & E8 & k & Y0 & Y1 & Y2 & Y3 & (d & d' & s & Y4 & Y5 & Y6 & (Y7 & Y7') & Y8) & _).
    rewrite HR in E1. injection E1 as <-.
    intros b x Hx. destruct (Nat.eq_dec b (j_branch j)) as [->|Hne].
    + exists d'. split; auto. assert (x = d) by congruence. subst x. rewrite Y7'.
      rewrite <- (app_nil_r (sols d)) at 1. apply subseq_app; [apply subseq_refl|apply subseq_nil].
    + exists x. split; [|apply subseq_refl]. rewrite Y3; auto. apply nth_error_Some. congruence.
  - destruct Ha as (H1 & H2 & H3).
    destruct (receive_corr_ok st nobif m w j iv r ds ss up lo C Hin Ei H1 H2 H3)
      as (m1 & E1 & E2 & E3 & E4 & E5 & E6 & E7 & E8 & E9 & E10 & E11 & d & d' & Y1 & Y2 & Y3 & Y4).
    rewrite HR in E1. injection E1 as <-.
    intros b x Hx. destruct (Nat.eq_dec b (j_branch j)) as [->|Hne].
    2:{ exists x. split; [|apply subseq_refl]. rewrite E11; auto. }
    exists d'. split; auto. assert (x = d) by congruence. subst x.
    cbn [exec] in Y3. destruct (submit d (j_ID j) ds ss up lo) as [d1|] eqn:Es; [|discriminate].
    cbn [rbind] in Y3. injection Y3 as <-.
    pose proof (branch_reachable _ _ _ _ C Y1) as HRd. destruct (reachable_inv _ HRd) as (c & I).
    destruct (bo_run _ _ _ _ _ (ci_branches _ _ _ C _ _ Y1) w j Hin eq_refl) as (e & Hact & El).
    pose proof (ci_kinds _ _ _ C _ _ Hin) as Hk. unfold kind_ok in Hk. rewrite Ei in Hk.
    destruct (submit_export d c (j_ID j) e ds ss up lo d1 I Hact) as (k & tl & th & _ & _ & _ & S1 & _); auto.
    { unfold correction. lia. }
    { split; auto. }
    destruct (complete_effect d c (j_ID j) e ds ss up lo d1 I Hact) as ((c' & I') & _); auto.
    { unfold correction. lia. }
    { split; auto. }
    assert (Ef : sols (finishJob d1 (j_ID j)) = sols d1).
    { pose proof (inv_rep _ _ I') as HR'. rewrite (sols_eq _ _ HR'). symmetry. apply (sols_eq d1 c'). exact HR'. }
    rewrite Ef, S1. rewrite <- (firstn_skipn (S k) (sols d)) at 1. apply subseq_app; [apply subseq_refl|].
    change (skipn (S k) (sols d)) with ([] ++ skipn (S k) (sols d)) at 1.
    apply subseq_app; [apply subseq_nil|apply subseq_refl].
Qed.

Lemma execution_keeps P c m0 tr m : prepared st c -> startMain st [] P c = Ok m0 ->
  forall m1 tr1, execution st m0 tr1 m1 -> execution st m1 tr m -> keeps m1 m.
Proof.
  intros Hp H0 m1 tr1 H1 H. 
  assert (G : forall tr m, execution st m1 tr m -> execution st m0 (tr1 ++ tr) m).
  { induction 1 as [|tr' m' w j a m'' H' IH Hin Ha Hr]; [rewrite app_nil_r; auto|].
    rewrite app_assoc. econstructor; eauto. }
  induction H as [|tr m w j a m' H IH Hin Ha Hr]; [apply keeps_refl|].
  eapply keeps_trans; [exact IH|].
  destruct (execution_inv st False P c m0 (tr1 ++ tr) m Hp H0 (G _ _ H)) as [C Hit _ _ _ _]; [tauto|].
  unfold round in Hr. destruct (receive_ok st False m w j a (proj1 Hp) C Hin Ha) as (m2 & R & C2 & I2 & _); [tauto|].
  rewrite R in Hr. cbn [rbind] in Hr.
  eapply keeps_trans; [eapply (receive_keeps False m w j a m2); eauto; [apply Hp|tauto]|].
  unfold dispatchAll in Hr.
  destruct (dispatchLoop_ok st False (length (mn_workers m2)) m2 C2) as (m3 & js & D & _ & _ & _ & _ & _ & _ & _ & _ & _ & K); auto.
  { lia. }
  rewrite D in Hr. injection Hr as <-. intros b d Hd. destruct (K b d Hd) as (d' & E1 & E2 & E3).
  exists d'. split; auto. rewrite E3. apply subseq_refl.
Qed.

(** an answer that is always acceptable *)
Definition exampleAnswer (j : job) : answer :=
  match j_info j with
  | JInit _ => AInit 1 [j_start j] false
  | JCorr _ _ => ACorr [j_dt j; 1] [j_start j] 1 (j_dt j)
  end.

(** every execution can be completed *)
Lemma can_complete P c m0 tr m : prepared st c -> startMain st [] P c = Ok m0 -> execution st m0 tr m ->
  exists tr' m', execution st m0 (tr ++ tr') m' /\ mn_running m' = [] /\
    Forall (fun x => bifurcates (snd x) = false) tr'.
Proof.
  intros Hp H0. remember (st_maxIt st - length tr)%nat as n eqn:En. revert tr m En.
  induction n as [|n IH]; intros tr m En H.
  all: destruct (execution_inv st False P c m0 tr m Hp H0 H) as [C Hit Hs Hid HP HD]; [tauto|];
    pose proof (ci_logs _ _ _ C) as HL; apply Permutation_length in HL;
    rewrite app_length, HD, map_length in HL;
    destruct (mn_running m) as [|[w j] r] eqn:Er;
    [exists [], m; rewrite app_nil_r; auto|].
  - cbn in HL. lia.
  - assert (Hin : In (w, j) (mn_running m)) by (rewrite Er; left; auto).
    assert (Ha : acceptable j (exampleAnswer j)).
    { pose proof (running_dt st False m w j C Hin) as Hdt. unfold wellPosed in Hdt. unfold acceptable, exampleAnswer.
      destruct (j_info j); [split; [lra|auto]|]. split; [auto|]. split; [constructor; [auto|]; constructor; [lra|constructor]|].
      assert (0 < 1 / 10 ^ 12) by (apply Rdiv_lt_0_compat; [lra|apply pow_lt; lra]).
      replace (j_dt j - Rsum (removelast [j_dt j; 1])) with 0 by (unfold Rsum; cbn [removelast fold_left fold_right]; lra). unfold Rdiv at 1. lra. }
    destruct (round_ok st False P tr m w j (exampleAnswer j) (proj1 Hp)) as (m1 & R1 & E1); auto.
    { constructor; auto. }
    { tauto. }
    assert (H1 : execution st m0 (tr ++ [(w, j, exampleAnswer j)]) m1) by (econstructor; eauto).
    destruct (IH (tr ++ [(w, j, exampleAnswer j)]) m1) as (tr' & m' & H2 & H3 & H4); auto.
    { rewrite app_length. cbn in *. lia. }
    exists ((w, j, exampleAnswer j) :: tr'), m'. rewrite <- app_assoc in H2. split; [exact H2|].
    split; auto. constructor; auto. cbn. unfold exampleAnswer. destruct (j_info j); reflexivity.
Qed.

(** ** renaming of workers *)
Definition ren (f : nat -> nat) (m : main) : main :=
  mkMain (mn_data m) (mn_it m) (mn_njobs m) (map f (mn_workers m)) (mn_K m)
    (map (fun x => (f (fst x), snd x)) (mn_running m)) (map (fun x => (f (fst x), snd x)) (mn_sent m))
    (map (fun x => (f (fst x), snd x)) (mn_done m)).
Lemma dispatch_ren f m m' : dispatch st m = Ok m' -> dispatch st (ren f m) = Ok (ren f m').
Proof.
  unfold dispatch. cbn [ren mn_data mn_workers].
  destruct (getFirstNonEmptyBranch (mn_data m)) as [b|]; [|discriminate]. cbn [rbind].
  destruct (branch (mn_data m) b) as [d|]; [|discriminate]. cbn [rbind].
  destruct (pop d) as [[d1 [[[id dt] s] p]]|]; [|discriminate]. cbn [rbind].
  destruct (jobLevel d1 id) as [d2 lev].
  match goal with |- rbind ?X _ = _ -> _ => destruct X as [[d3 info]|]; [|discriminate] end. cbn [rbind].
  destruct (mn_workers m) as [|w ws]; [discriminate|]. cbn [map]. intros [= <-].
  unfold ren. cbn. rewrite !map_app. reflexivity.
Qed.
Lemma dispatchLoop_ren f fuel : forall m m', dispatchLoop st fuel m = Ok m' -> dispatchLoop st fuel (ren f m) = Ok (ren f m').
Proof.
  assert (HC : forall m, canDispatch st (ren f m) = canDispatch st m).
  { intros m. unfold canDispatch. cbn. destruct (mn_workers m); reflexivity. }
  induction fuel as [|n IH]; intros m m' H; cbn [dispatchLoop] in *; rewrite HC; destruct (canDispatch st m); try discriminate.
  - injection H as <-. auto.
  - destruct (dispatch st m) as [m1|] eqn:D; [|discriminate]. cbn [rbind] in H.
    rewrite (dispatch_ren _ _ _ D). cbn [rbind]. auto.
  - injection H as <-. auto.
Qed.

(** ** the vector K *)
Definition setKs (K : list Z) (m : main) : main :=
  mkMain (mn_data m) (mn_it m) (mn_njobs m) (mn_workers m) K (mn_running m) (mn_sent m) (mn_done m).
Lemma dispatch_K K m m' : dispatch st m = Ok m' -> dispatch st (setKs K m) = Ok (setKs K m').
Proof.
  unfold dispatch. cbn [setKs mn_data mn_workers].
  destruct (getFirstNonEmptyBranch (mn_data m)) as [b|]; [|discriminate]. cbn [rbind].
  destruct (branch (mn_data m) b) as [d|]; [|discriminate]. cbn [rbind].
  destruct (pop d) as [[d1 [[[id dt] s] p]]|]; [|discriminate]. cbn [rbind].
  destruct (jobLevel d1 id) as [d2 lev].
  match goal with |- rbind ?X _ = _ -> _ => destruct X as [[d3 info]|]; [|discriminate] end. cbn [rbind].
  destruct (mn_workers m) as [|w ws]; [discriminate|]. intros [= <-]. reflexivity.
Qed.
Lemma receive_K K m m' w j dist ss bif : receive st m w (AInit dist ss bif) = Ok m' ->
  nfind w (mn_running m) = Some j -> nth_error K (j_branch j) = None ->
  receive st (setKs K m) w (AInit dist ss bif) = Fail EUndef.
Proof.
  intros H Hf HK. unfold receive, runningJob in *. cbn [setKs mn_running mn_data mn_K] in *. rewrite Hf in *.
  destruct (branch (mn_data m) (j_branch j)) as [d|] eqn:Eb; [|discriminate]. cbn [rbind] in *.
  destruct (if st_solve st then jobLevel d (j_ID j) else (d, 1%Z)) as [d1 lev].
  destruct (lev =? 0)%Z; [|discriminate]. unfold receiveInit in *.
  destruct (branch (setBranch (mn_data m) (j_branch j) d1) (j_branch j)) as [d2|]; [|discriminate]. cbn [rbind] in *.
  destruct (jobStartTime d2 (j_ID j)) as [d3 t3].
  destruct ss as [|s0 sr]; [discriminate|]. cbn [rbind] in *.
  destruct (appendData d3 (t3 + dist) s0 false) as [d4|]; [|discriminate]. cbn [rbind] in *.
  unfold readK. rewrite HK. reflexivity.
Qed.

(** two waiting segments go to the first two workers *)
Lemma two_jobs nobif d0 w1 w2 K : (2 <= st_maxIt st)%nat -> length (waiting d0) = 2%nat ->
  CInv st nobif (mkMain [d0] 0 0 [w1; w2] K [] [] []) ->
  exists m2 j1 j2, dispatchLoop st 2 (mkMain [d0] 0 0 [w1; w2] K [] [] []) = Ok m2 /\
    mn_running m2 = [(w1, j1); (w2, j2)].
Proof.
  intros HM Hw C0. unfold waiting in Hw. destruct (d_queue d0) as [|q1 [|q2 [|]]] eqn:Eq; try discriminate.
  assert (He0 : cEmpty [d0] = false) by (cbn; unfold isEmpty; rewrite Eq; reflexivity).
  destruct (dispatch_ok st nobif _ w1 [w2] C0 He0 eq_refl) as
    (m1 & j1 & D1 & C1 & I1 & W1 & K1 & R1 & S1 & Dn1 & N1 & L1 & B1 & F1 & dd & dd' & e & q & X1 & X2 & X3 & X4 & X5 & _).
  cbn [mn_data mn_running mn_it] in *.
  assert (Eb : j_branch j1 = 0%nat).
  { assert (Hx : nth_error [d0] (j_branch j1) <> None) by congruence. apply nth_error_Some in Hx. cbn in Hx. lia. }
  rewrite Eb in *. cbn in X1. injection X1 as <-. rewrite Eq in X2. injection X2 as <- <-.
  assert (He : cEmpty (mn_data m1) = false).
  { destruct (mn_data m1) as [|y l]; [discriminate|]. cbn in X3. injection X3 as ->. cbn. unfold isEmpty. rewrite X4. reflexivity. }
  destruct (dispatch_ok st nobif m1 w2 [] C1 He W1) as (m2 & j2 & D2 & C2 & I2 & W2 & K2 & R2 & _).
  exists m2, j1, j2. split; [|rewrite R2, R1; reflexivity].
  cbn [dispatchLoop]. unfold canDispatch at 1. cbn [mn_data mn_it mn_workers]. rewrite He0.
  replace (0 <? st_maxIt st)%nat with true by (symmetry; apply Nat.ltb_lt; lia). cbn [negb andb].
  rewrite D1. cbn [rbind]. unfold canDispatch at 1. rewrite He, I1, W1.
  replace (1 <? st_maxIt st)%nat with true by (symmetry; apply Nat.ltb_lt; lia). cbn [negb andb].
  rewrite D2. cbn [rbind]. unfold canDispatch. rewrite W2, andb_false_r. reflexivity.
Qed.

(** an initiation starts from the last point of its branch *)
Lemma start_time_last nobif m w j t0 d : CInv st nobif m -> In (w, j) (mn_running m) -> j_info j = JInit t0 ->
  nth_error (mn_data m) (j_branch j) = Some d -> snd (jobStartTime d (j_ID j)) = last (times d) 0.
Proof.
  intros C Hin Ei Ed. pose proof (ci_kinds _ _ _ C _ _ Hin) as Hk. unfold kind_ok in Hk. rewrite Ei in Hk.
  destruct Hk as [Hst Hl0]. pose proof (branch_reachable _ _ _ _ C Ed) as HRd. destruct (reachable_inv _ HRd) as (c & I).
  pose proof (ci_branches _ _ _ C _ d Ed) as BO.
  destruct (bo_run _ _ _ _ _ BO w j Hin eq_refl) as (e & Ha & El). rewrite Hl0 in El.
  pose proof (active_nfind _ _ _ _ I Ha) as Hf.
  pose proof (bo_zeros _ _ _ _ _ BO) as BZ. rewrite Hst in BZ. destruct BZ as [BZ1 BZ2].
  assert (Hez : In e (zeros d)).
  { unfold zeros, handedOut. apply filter_In. split; [|apply Z.eqb_eq; auto]. apply in_or_app; right.
    apply in_map_iff. exists (j_ID j, e). auto. }
  pose proof (BZ2 e Hez) as Elo. pose proof (inv_rep _ _ I) as HR. pose proof HR as (R1&_).
  unfold jobStartTime. rewrite (readJob_known _ _ _ Hf). change (timeAt d (seg_lo e) = last (times d) 0).
  rewrite Elo, R1. rewrite (times_eq _ _ HR). pose proof (inv_ne _ _ I) as Hne.
  destruct c as [|p0 c0] eqn:Ec; [contradiction|]. rewrite <- Ec in *.
  rewrite (last_map_nonempty px c p0 0 Hne), (last_map_nonempty pt c p0 0 Hne).
  apply (timeAt_val _ _ _ HR). apply last_In. auto.
Qed.

(** solve with one worker: the first job is the initiation from the start point *)
Lemma first_init c : st_solve st = true -> (1 <= st_maxIt st)%nat -> prepared st c ->
  exists m0 j t0, startMain st [] 2 c = Ok m0 /\ mn_running m0 = [(1%nat, j)] /\ j_info j = JInit t0 /\
    j_branch j = 0%nat /\ mn_K m0 = [1%Z] /\ length (mn_data m0) = 1%nat.
Proof.
  intros Hs HM Hp.
  assert (C0 := prepared_inv st False c [1%nat] Hp ltac:(constructor; [cbn; tauto|constructor])).
  destruct Hp as [(ml & tol & He) Hp]. rewrite Hs in Hp. destruct Hp as (s & dL & Hp). cbn in Hp. rewrite He in Hp.
  destruct (newStart_ok ml tol s false) as (d & Ed & Hc & HJ & HZ & HX & HL & HI). rewrite Ed in Hp.
  cbn [rbind] in Hp. injection Hp as <-.
  destruct (created_start_inv _ _ _ _ _ Ed) as (_ & _ & _ & _ & _ & EQ).
  assert (He0 : cEmpty [setLength d dL] = false).
  { cbn. unfold isEmpty. cbn. rewrite EQ. reflexivity. }
  destruct (dispatch_ok st False _ 1%nat [] C0 He0 eq_refl) as
    (m1 & j1 & D1 & C1 & I1 & W1 & K1 & R1 & S1 & Dn1 & N1 & L1 & B1 & F1 & dd & dd' & e & q & X1 & X2 & X3 & X4 & X5 & _).
  cbn [mn_data mn_running mn_it mn_K] in *.
  assert (Eb : j_branch j1 = 0%nat).
  { assert (Hx : nth_error [setLength d dL] (j_branch j1) <> None) by congruence. apply nth_error_Some in Hx. cbn in Hx. lia. }
  rewrite Eb in X1. cbn in X1. injection X1 as <-. cbn in X2. rewrite EQ in X2. injection X2 as <- <-. cbn in X5.
  pose proof (ci_kinds _ _ _ C1 1%nat j1) as Hk. rewrite R1 in Hk. specialize (Hk (or_introl eq_refl)).
  unfold kind_ok in Hk. destruct (j_info j1) as [t0|iv r] eqn:Ei; [|lia].
  exists m1, j1, t0. split; [|auto 10].
  unfold startMain, dispatchAll. cbn [app seq Nat.sub mn_workers length]. cbn [dispatchLoop].
  unfold canDispatch at 1. cbn [mn_data mn_it mn_workers]. rewrite He0.
  replace (0 <? st_maxIt st)%nat with true by (symmetry; apply Nat.ltb_lt; lia). cbn [negb andb].
  rewrite D1. cbn [rbind]. unfold canDispatch. rewrite W1, andb_false_r. reflexivity.
Qed.

(** ... and with Nsteps <= 2 and MaxIt = 1 its answer ends the run with two points of level 0 *)
Lemma first_init_answered c (s : sol) : st_solve st = true -> st_maxIt st = 1%nat -> prepared st c ->
  (st_Nsteps st <= 2)%Z ->
  exists m0 tr m d, startMain st [] 2 c = Ok m0 /\ execution st m0 tr m /\ mn_running m = [] /\
    Forall (fun x => bifurcates (snd x) = false) tr /\ nth_error (mn_data m) 0 = Some d /\
    lev0 d = 2%nat /\ zeros d = [].
Proof.
  intros Hs HM Hp HN. destruct (first_init c Hs ltac:(lia) Hp) as (m0 & j & t0 & E0 & R0 & Ei & Eb & EK & EL).
  set (a := AInit 1 [s] false : answer).
  assert (Ha : acceptable j a) by (unfold acceptable, a; rewrite Ei; split; [lra|reflexivity]).
  assert (Hin : In (1%nat, j) (mn_running m0)) by (rewrite R0; left; auto).
  destruct (start_ok st False 2 c Hp) as (m0' & E0' & EI). rewrite E0 in E0'. injection E0' as <-.
  destruct (round_ok st False 2 [] m0 1%nat j a (proj1 Hp) EI Hin Ha) as (m & Rd & EI'); [tauto|].
  exists m0, [(1%nat, j, a)], m.
  assert (HX : execution st m0 ([] ++ [(1%nat, j, a)]) m) by (econstructor; eauto; constructor).
  destruct EI' as [C Hit Hsent Hidle HP HD].
  assert (Hr : mn_running m = []).
  { pose proof (Permutation_length (ci_logs _ _ _ C)) as PL. rewrite HD, app_length in PL. cbn in PL.
    destruct (mn_running m); auto. cbn in PL. lia. }
  pose proof (ei_core _ _ _ _ _ EI) as C0.
  destruct Hp as [(ml & tol & He) Hp].
  destruct (receive_init_ok st ml tol He False m0 1%nat j t0 1 [s] false C0 Hin Ei ltac:(lra) eq_refl)
      as (m1 & E1 & E2 & E3 & E4 & E5 & E6 & E7 & E8 & k & Y0 & Y1 & Y2 & Y3 & (d & d' & s' & Y4 & Y5 & Y6 & (Y7 & Y7') & Y8) & _); [tauto|].
  assert (Hk : k = 1%Z) by (rewrite Eb, EK in Y0; cbn in Y0; congruence). subst k.
  cbn [andb] in Y2. rewrite Eb, EK in Y2. cbn in Y2.
  unfold round in Rd. unfold a in Rd. rewrite E1 in Rd. cbn [rbind] in Rd. unfold dispatchAll in Rd.
  destruct (dispatchLoop_ok st False (length (mn_workers m1)) m1 E2) as
     (m2 & js & D & _ & _ & _ & _ & _ & S2 & _ & _ & L2 & _); auto; [pose proof (ei_it _ _ _ _ _ EI); lia|].
  rewrite Rd in D. injection D as <-.
  (* no dispatch any more: the state is that after the receipt *)
  assert (Em : m1 = m).
  { pose proof (ei_sent _ _ _ _ _ EI) as Q1. rewrite E6 in S2.
    assert (Hcd : canDispatch st m1 = false).
    { unfold canDispatch. rewrite E3. pose proof (Permutation_length (ci_logs _ _ _ C0)) as PL.
      rewrite (ei_done _ _ _ _ _ EI), R0 in PL. cbn in PL. rewrite Q1, PL, HM. cbn. rewrite andb_false_r. reflexivity. }
    destruct (length (mn_workers m1)) as [|f]; cbn [dispatchLoop] in Rd; rewrite Hcd in Rd; congruence. }
  subst m1. destruct (ci_K _ _ _ C Hs) as [K1 K2]. rewrite Eb in Y5. destruct (K2 0%nat d' Y5) as (k & Hk & Hl & Hb & Hz & _).
  rewrite Y2 in Hk. cbn in Hk. injection Hk as <-. exists d'.
  split; auto. split; auto. split; auto. split; [constructor; auto|]. split; auto. split; [lia|].
  destruct (zeros d') eqn:Ez; auto. exfalso. assert (2 <= maxInit st)%Z by (apply Hz; discriminate).
  unfold maxInit in *. lia.
Qed.
End Lemmas.
