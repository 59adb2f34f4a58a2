(** Executions of gsAPALM::parallelSolve (src/gsALMSolvers/gsAPALM.hpp l.215-428) with answers that depend on the job only:
    the curve that is left does not depend on the order of the answers. *)
From Verif Require Import Prelude APALMData APALMDataProofs APALMDataInv APALMSpec APALMHist APALMDataEx APALMDriver APALMSched APALMExec APALMOrder.
From Coq Require Import Permutation.
Local Open Scope R_scope.

Section OrderExec.
Context {sol : Type}.
Notation data := (data sol).
Notation point := (@point sol).
Notation main := (main sol).
Notation job := (job sol).
Notation answer := (answer sol).
Variable work : Z -> R -> sol -> sol -> sol -> list R * list sol * R * R.

(** ** what a branch will become *)
Definition fate (d : data) (f : Z * R * point * list (R * R * sol * sol * Z)) : Prop :=
  exists p c, Inv d (p :: c) /\ f = (d_maxLevel d, d_tol d, p, walk (grow work (d_maxLevel d) (d_tol d)) (segs d) (p :: c)).
Lemma Rep_fun (d : data) c : forall c', Rep d c -> Rep d c' -> c = c'.
Proof.
  intros c' (A1&A2&A3&A4&A5&_) (B1&B2&B3&B4&B5&_). rewrite A1 in B1. rewrite A2 in B2. rewrite A3 in B3. rewrite A4 in B4. rewrite A5 in B5.
  clear A1 A2 A3 A4 A5. revert c' B1 B2 B3 B4 B5. induction c as [|p c IH]; intros [|q c'] B1 B2 B3 B4 B5; try discriminate; [reflexivity|].
  cbn in *. injection B1 as E1 B1. injection B2 as E2 B2. injection B3 as _ E3 B3. injection B4 as _ E4 B4. injection B5 as _ E5 B5.
  rewrite (IH c') by auto. f_equal. destruct p, q. cbn in *. congruence.
Qed.
Lemma fate_fun d f f' : fate d f -> fate d f' -> f = f'.
Proof.
  intros (p & c & I & ->) (p' & c' & I' & ->). pose proof (Rep_fun _ _ _ (inv_rep _ _ I) (inv_rep _ _ I')) as E. injection E as <- <-. reflexivity.
Qed.
Lemma fate_of d c : Inv d c -> exists f, fate d f.
Proof. intros I. destruct c as [|p c]; [exfalso; apply (inv_ne _ _ I); reflexivity|]. exists (d_maxLevel d, d_tol d, p, walk (grow work (d_maxLevel d) (d_tol d)) (segs d) (p :: c)). exists p, c. auto. Qed.
Lemma items_fun (p : point) c : forall c', walk (grow work 0 0) [] (p :: c) = walk (grow work 0 0) [] (p :: c') -> c = c'.
Proof.
  revert p. induction c as [|q c IH]; intros p [|q' c']; cbn [walk segAt find app]; try discriminate; [reflexivity|]. intros H.
  change (segAt [] (px p)) with (@None Z) in H. cbn [app] in H. injection H as H1 H2 H3 H4 H5 H6.
  assert (q = q') as <- by (destruct q, q'; cbn in *; f_equal; auto; lra). f_equal. apply (IH q). exact H6.
Qed.
Lemma walk_nil ml tol ml' tol' (c : list point) : walk (grow work ml tol) [] c = walk (grow work ml' tol') [] c.
Proof. induction c as [|a [|b c] IH]; [reflexivity|reflexivity|]. cbn [walk]. f_equal. exact IH. Qed.
(** the end: nothing waits *)
Lemma fate_end d d' f : fate d f -> fate d' f -> segs d = [] -> segs d' = [] -> times d = times d' /\ sols d = sols d' /\ levels d = levels d'.
Proof.
  intros (p & c & I & Ef) (p' & c' & I' & Ef') S S'. rewrite S in Ef. rewrite S' in Ef'. rewrite Ef in Ef'.
  pose proof (f_equal snd Ef') as E. cbn [snd] in E. pose proof (f_equal (fun x => snd (fst x)) Ef') as Ep. cbn [snd fst] in Ep. subst p'.
  rewrite (walk_nil _ _ 0 0), (walk_nil (d_maxLevel d') (d_tol d') 0 0) in E. apply items_fun in E. subst c'.
  pose proof (inv_rep _ _ I) as HR. pose proof (inv_rep _ _ I') as HR'.
  rewrite (times_eq _ _ HR), (times_eq _ _ HR'), (sols_eq _ _ HR), (sols_eq _ _ HR'), (levels_eq _ _ HR), (levels_eq _ _ HR'). auto.
Qed.

Lemma walk_perm ml tol l l' (c : list point) : NoDup (map seg_lo l) -> Permutation l l' -> walk (grow work ml tol) l c = walk (grow work ml tol) l' c.
Proof.
  intros ND P. apply walk_ext; [|auto]. intros a _. apply segAt_eq; auto.
  - apply (Permutation_NoDup (Permutation_map seg_lo P)), ND.
  - intros e _. split; apply Permutation_in; [exact P|apply Permutation_sym, P].
Qed.
Lemma fate_same d d' c f : Inv d c -> Inv d' c -> d_maxLevel d' = d_maxLevel d -> d_tol d' = d_tol d -> Permutation (segs d) (segs d') -> fate d f -> fate d' f.
Proof.
  intros I I' E1 E2 P (p & c0 & I0 & ->). pose proof (Rep_fun _ _ _ (inv_rep _ _ I) (inv_rep _ _ I0)) as ->.
  exists p, c0. split; [exact I'|]. rewrite E1, E2. f_equal. apply walk_perm; [apply I|exact P].
Qed.
Lemma fate_pop (d d' : data) c id dt start prev f : Inv d c -> pop d = Ok (d', (id, dt, start, prev)) -> fate d f -> fate d' f.
Proof.
  intros I P. destruct (pop_inv _ _ _ _ _ _ _ I P) as (I' & _ & xl & xh & lv & q & a & b & Eq & Q' & J & _ & _ & _ & _ & _ & _ & _ & _ & O1 & O2 & _).
  apply (fate_same d d' c); auto.
  - rewrite (proj1 (inv_opt _ _ I')), (proj1 (inv_opt _ _ I)). exact O1.
  - rewrite (proj2 (inv_opt _ _ I')), (proj2 (inv_opt _ _ I)). exact O2.
  - apply filter_perm. unfold entries. rewrite Eq, Q', J, map_app. cbn [map snd app]. rewrite app_assoc. apply Permutation_cons_append.
Qed.
Lemma fate_sim d d' c f : Inv d c -> sim d d' -> fate d f -> fate d' f.
Proof.
  intros I S. destruct (sim_same _ _ _ I S) as (I' & _ & _ & _ & _ & _ & _ & _ & EJ & EQ & _).
  destruct S as (tm & xm & -> & _). apply (fate_same d _ c); auto.
Qed.

(** one answer *)
Lemma fate_complete (d d' : data) c id e dt start prev r ds ss up lo f : Inv d c -> active d id e -> correction e ->
  describes d id e dt start prev -> rfind (seg_hi e) (d_sols d) = Some r -> result_ok ds ss ->
  work (seg_lev e) dt start prev r = (ds, ss, up, lo) -> submit d id ds ss up lo = Ok d' -> fate d f -> fate (finishJob d' id) f.
Proof.
  intros I Ha Hc Hd Hr Hok Hw Hs (p & c0 & I0 & ->). pose proof (Rep_fun _ _ _ (inv_rep _ _ I) (inv_rep _ _ I0)) as ->. clear I0.
  destruct e as [[xl xh] lev]. pose proof (active_nfind _ _ _ _ I Ha) as Hf. cbn [seg_hi seg_lev fst snd] in *.
  destruct (complete_inv d (p :: c0) id lev xl xh ds ss up lo d' I Hf Hc Hok Hs)
    as (pre & a & b & post & Ec & E1 & E2 & Hck & I' & Q & J & EI & M1 & M2 & _). subst xl xh.
  pose proof (inv_rep _ _ I) as HR. pose proof HR as (R1&R2&R3&R4&R5&R6&R7&R8). pose proof (inv_rep _ _ I') as HR'. pose proof HR' as (_&_&_&_&_&R6'&_&_).
  assert (Ia : In a (p :: c0)) by (rewrite Ec; apply in_or_app; right; left; auto).
  assert (Ib : In b (p :: c0)) by (rewrite Ec; apply in_or_app; right; right; left; auto).
  destruct Hd as (_ & (k & K1 & K2) & Hp & Hdt). cbn [seg_lo seg_hi fst snd] in *. specialize (Hdt Hc).
  rewrite (timeAt_val _ _ _ HR Ia) in K1, Hdt. rewrite (timeAt_val _ _ _ HR Ib) in Hdt. rewrite (times_eq _ _ HR) in K1. rewrite (sols_eq _ _ HR) in K2.
  rewrite R4, (rfind_map_in _ pp a R6 Ia) in Hp. injection Hp as Hp. rewrite R3, (rfind_map_in _ ps b R6 Ib) in Hr. injection Hr as Hr.
  assert (Est : ps a = start).
  { destruct (nth_error (p :: c0) k) as [q|] eqn:Eq; [|apply nth_error_None in Eq; assert (nth_error (map pt (p :: c0)) k <> None) by (rewrite K1; discriminate); apply nth_error_Some in H; rewrite map_length in H; lia].
    rewrite (map_nth_error pt _ _ Eq) in K1. rewrite (map_nth_error ps _ _ Eq) in K2. injection K1 as K1. injection K2 as <-. f_equal.
    apply nth_error_In in Eq. clear -R7 Ia Eq K1. induction (p :: c0) as [|x l IH]; [destruct Ia|]. cbn [map] in R7. apply incr_cons in R7 as [R7 R8].
    destruct Ia as [->|Ia], Eq as [->|Eq]; auto; exfalso; [specialize (R8 (pt q))|specialize (R8 (pt a))];
      [assert (pt a < pt q) by (apply R8, in_map, Eq)|assert (pt q < pt a) by (apply R8, in_map, Ia)]; lra. }
  set (new := newSegments _ _ _ _ _ _ _) in *.
  assert (Hsegs : forall e, In e (segs (finishJob d' id)) <-> (In e (segs d) /\ e <> (px a, px b, lev)) \/ In e new).
  { destruct (nfind_split _ _ _ (inv_jobs _ _ I) Hf) as (j1 & j2 & EJ1 & EJ2).
    assert (Hisnew : forall x, In x new -> isSeg x = true).
    { intros x Hx. apply newSegments_in in Hx as (_ & Hx & _); [|cbn [length]; rewrite app_length; cbn; lia]. unfold isSeg. rewrite Hx. apply Z.leb_le. unfold correction in Hc. cbn [seg_lev snd] in Hc. lia. }
    assert (ND : NoDup (map seg_lo (segs d))) by apply I.
    intros x. unfold segs, entries, finishJob. cbn [d_queue d_jobs with_jobs]. rewrite Q, J, EJ2, EJ1. rewrite !map_app. cbn [map snd]. rewrite !filter_In, !in_app_iff. cbn [In].
    split.
    - intros [[[H|H]|[H|H]] Hs0]; [left|right; exact H|left|left]; (split; [tauto|]); intros ->.
      all: unfold segs, entries in ND; rewrite EJ1 in ND; rewrite !map_app in ND; cbn [map snd] in ND; rewrite !filter_app in ND; cbn [filter] in ND; rewrite Hs0 in ND.
      all: rewrite !map_app in ND; cbn [map] in ND; rewrite app_assoc in ND; apply NoDup_remove_2 in ND; apply ND; rewrite !in_app_iff.
      all: [> left; left | left; right | right ]; apply in_map; apply filter_In; auto.
    - intros [[[[H|[H|[H|H]]] Hs0] NE]|H]; try tauto; [congruence|]. split; [tauto|apply Hisnew, H]. }
  assert (Hhd : exists c1, spliced pre a b post lev ds ss = p :: c1).
  { unfold spliced. destruct pre as [|p0 pre]; cbn [app] in Ec; injection Ec as -> ->; cbn [app]; eauto. }
  destruct Hhd as (c1 & Ec1). exists p, c1. rewrite <- Ec1. split; [exact I'|].
  assert (G : walk (grow work (d_maxLevel d) (d_tol d)) (segs (finishJob d' id)) (spliced pre a b post lev ds ss) = walk (grow work (d_maxLevel d) (d_tol d)) (segs d) (p :: c0)).
  { rewrite Ec. apply (grow_step work (d_maxLevel d) (d_tol d) (segs d) (segs (finishJob d' id)) pre a b post lev ds ss up lo); auto.
    - rewrite <- Ec. exact R6.
    - rewrite Hdt, Est, Hp, Hr. exact Hw.
    - apply I.
    - apply I'.
    - intros e He. rewrite <- Ec, <- R1. apply filter_In in He as [He _]. pose proof (inv_entries _ _ I) as Hent. rewrite Forall_forall in Hent.
      destruct (Hent e He) as [(_ & _ & H)|(_ & H)]; [exact H|apply Adj_in in H; tauto].
    - apply filter_In. split; [|unfold isSeg; apply Z.leb_le; exact Hc]. unfold entries. apply in_or_app. right. apply (in_map snd _ (id, (px a, px b, lev))). exact Ha. }
  cbn [finishJob d_maxLevel d_tol with_jobs]. rewrite M1, M2. f_equal. symmetry. exact G.
Qed.

(** ** executions *)
Variable st : settings sol.
Hypothesis Hst : st_solve st = false.
(** the answer is the one given by [work] *)
Definition byWork (x : nat * job * answer) : Prop :=
  let '(_, j, a) := x in
  match j_info j, a with
  | JCorr _ r, ACorr ds ss up lo => work (j_level j) (j_dt j) (j_start j) (j_prev j) r = (ds, ss, up, lo)
  | _, _ => False
  end.
(** the reference sent with a running job is still the end of its segment *)
Definition refs (m : main) : Prop :=
  forall w j d e, In (w, j) (mn_running m) -> nth_error (mn_data m) (j_branch j) = Some d -> active d (j_ID j) e ->
    exists iv r, j_info j = JCorr iv r /\ rfind (seg_hi e) (d_sols d) = Some r.
Record OInv (F : list (Z * R * point * list (R * R * sol * sol * Z))) (m : main) : Prop := mkOI {
  oi_core : CInv st False m;
  oi_refs : refs m;
  oi_fates : length (mn_data m) = length F /\ forall b d f, nth_error (mn_data m) b = Some d -> nth_error F b = Some f -> fate d f
}.

Lemma sols_find (d : data) c p : Inv d c -> In p c -> rfind (px p) (d_sols d) = Some (ps p).
Proof. intros I H. pose proof (inv_rep _ _ I) as (_&_&R3&_&_&R6&_). rewrite R3. apply rfind_map_in; auto. Qed.

(** one job sent *)
Lemma dispatch_view m m' : CInv st False m -> canDispatch st m = true -> dispatch st m = Ok m' ->
  CInv st False m' /\ mn_it m' = S (mn_it m) /\
  exists b d c d1 d2 id dt start prev xl xh lv pb w iv,
    (b < length (mn_data m))%nat /\ nth_error (mn_data m) b = Some d /\ branch_ok st b d (mn_running m) (mn_sent m) /\ Inv d c /\
    pop d = Ok (d1, (id, dt, start, prev)) /\ id = d_ID d /\ Inv d1 c /\ d_jobs d1 = d_jobs d ++ [(id, (xl, xh, lv))] /\ In pb c /\ px pb = xh /\
    sim d1 d2 /\ Inv d2 c /\ d_jobs d2 = d_jobs d1 /\ mn_data m' = setBranch (mn_data m) b d2 /\
    mn_running m' = mn_running m ++ [(w, mkJob b id lv dt start prev (JCorr iv (ps pb)))].
Proof.
  intros C HC D. apply canDispatch_true in HC as (He & _ & w & ws & Hw).
  destruct (dispatch_ok st False m w ws C He Hw) as (m1 & j & D1 & C1 & EI & _). rewrite D in D1. injection D1 as <-.
  split; [exact C1|]. split; [exact EI|].
  destruct (firstNonEmpty_spec (mn_data m) 0 He) as (b & d & Eb & Hb & Hd & _). cbn [Nat.add] in Eb.
  pose proof (ci_branches _ _ _ C b d Hb) as BO. destruct (bo_hist _ _ _ _ _ BO) as (h & Hh & _).
  destruct (reachable_inv d (bhist_reachable _ _ Hh)) as (c & I).
  unfold dispatch, getFirstNonEmptyBranch in D. rewrite Eb in D. cbn [rbind] in D. unfold branch in D. rewrite Hb in D. cbn [rbind] in D.
  destruct (pop d) as [[d1 [[[id dt] start] prev]]|] eqn:P; [|discriminate]. cbn [rbind] in D.
  destruct (pop_inv _ _ _ _ _ _ _ I P) as (I1 & Eid & xl & xh & lv & q & pa & pb & Eq & Q' & J & _ & Ia & Ib & Ea & Ebx & _).
  assert (Hf1 : nfind id (d_jobs d1) = Some (xl, xh, lv)).
  { apply (mfind_NoDup _ Nat.eqb_eq); [apply I1|]. rewrite J. apply in_or_app; right; left; auto. }
  rewrite Hst in D. cbn [andb] in D. unfold jobLevel in D. rewrite (readJob_known _ _ _ Hf1) in D. unfold getReferenceByID in D. rewrite (readJob_known _ _ _ Hf1) in D.
  cbn [seg_hi seg_lev fst snd] in D. rewrite <- Ebx, (sols_find _ _ _ I1 Ib) in D.
  pose proof (jobTimes_sim _ _ _ Hf1) as S. destruct (jobTimes d1 id) as [d2 iv]. cbn [fst] in S. cbn [rbind] in D. rewrite Hw in D.
  injection D as <-. cbn [mn_running mn_data].
  assert (I2 : Inv d2 c) by (eapply sim_inv; eauto).
  destruct (sim_same _ _ _ I1 S) as (_ & _ & _ & _ & _ & _ & _ & _ & EJ2 & _).
  assert (Hbl : (b < length (mn_data m))%nat) by (apply nth_error_Some; congruence).
  exists b, d, c, d1, d2, id, dt, start, prev, xl, xh, lv, pb, w, iv. repeat (split; [assumption|]). split; reflexivity.
Qed.
Lemma dispatch_keeps F m m' : OInv F m -> canDispatch st m = true -> dispatch st m = Ok m' -> OInv F m'.
Proof.
  intros [C RF [FL FT]] HC D. destruct (dispatch_view m m' C HC D) as (C1 & _ & b & d & c & d1 & d2 & id & dt & start & prev & xl & xh & lv & pb & w & iv &
    Hbl & Hb & BO & I & P & Eid & I1 & J & Ib & Ebx & S & I2 & EJ2 & ED & ER).
  assert (Hsub : forall x, In x (mn_running m) -> In x (mn_sent m)).
  { intros x Hx. eapply Permutation_in; [symmetry; apply (ci_logs _ _ _ C)|]. apply in_or_app; auto. }
  constructor; [exact C1| |].
  - intros w' j' d' e' Hin Hd' Ha. rewrite ER in Hin. rewrite ED in Hd'. apply in_app_or in Hin as [Hin|[E|[]]].
    + destruct (Nat.eq_dec b (j_branch j')) as [Hbj|Hne].
      * rewrite <- Hbj in Hd'. rewrite setBranch_same in Hd' by auto. injection Hd' as <-. unfold active in Ha. rewrite EJ2, J in Ha.
        assert (Ha0 : active d (j_ID j') e').
        { apply in_app_or in Ha as [Ha|[E|[]]]; [exact Ha|]. exfalso. injection E as E _.
          pose proof (bo_ids _ _ _ _ _ BO w' j' (Hsub _ Hin) (eq_sym Hbj)). lia. }
        rewrite Hbj in Hb. destruct (RF w' j' d e' Hin Hb Ha0) as (iv' & r & E1 & E2). exists iv', r. split; [exact E1|].
        destruct (entry_points d c e' I) as (qa & qb & _ & Iqb & _ & Eqb); [unfold entries; apply in_or_app; right; apply (in_map snd _ (j_ID j', e')); exact Ha0|].
        rewrite Eqb in *. rewrite (sols_find _ _ _ I Iqb) in E2. rewrite (sols_find _ _ _ I2 Iqb). exact E2.
      * rewrite setBranch_other in Hd' by auto. exact (RF w' j' d' e' Hin Hd' Ha).
    + injection E as <- <-. cbn [j_branch j_ID j_info] in *. rewrite setBranch_same in Hd' by auto. injection Hd' as <-.
      unfold active in Ha. assert (e' = (xl, xh, lv)) as ->.
      { apply (active_nfind _ _ _ _ I2) in Ha. rewrite EJ2 in Ha. assert (Hf1 : nfind id (d_jobs d1) = Some (xl, xh, lv)) by (apply (mfind_NoDup _ Nat.eqb_eq); [apply I1|rewrite J; apply in_or_app; right; left; auto]). congruence. }
      exists iv, (ps pb). split; [reflexivity|]. cbn [seg_hi fst snd]. rewrite <- Ebx. apply (sols_find _ _ _ I2 Ib).
  - rewrite ED. split; [rewrite setBranch_length; exact FL|]. intros b' d' f Hb' Hf. destruct (Nat.eq_dec b b') as [<-|Hne].
    + rewrite setBranch_same in Hb' by auto. injection Hb' as <-. apply (fate_sim d1 d2 c); auto. apply (fate_pop d d1 c id dt start prev); auto. eapply FT; eauto.
    + rewrite setBranch_other in Hb' by auto. eapply FT; eauto.
Qed.
Lemma dispatchLoop_keeps F fuel : forall m m', OInv F m -> dispatchLoop st fuel m = Ok m' -> OInv F m'.
Proof.
  induction fuel as [|n IH]; intros m m' O H; cbn [dispatchLoop] in H; destruct (canDispatch st m) eqn:E; try discriminate; try (injection H as <-; exact O).
  destruct (dispatch st m) as [m1|] eqn:D; [|discriminate]. cbn [rbind] in H. apply (IH m1); [|exact H]. apply (dispatch_keeps F m); auto.
Qed.
Lemma receive_keeps F m w j a m' : OInv F m -> In (w, j) (mn_running m) -> acceptable j a -> byWork (w, j, a) -> receive st m w a = Ok m' -> OInv F m'.
Proof.
  intros [C RF [FL FT]] Hin Hacc Hby R. unfold byWork in Hby. unfold acceptable in Hacc. destruct (j_info j) as [|iv r] eqn:Ei; [destruct Hby|].
  destruct a as [ds ss up lo|]; [|destruct Hby]. destruct Hacc as (A1 & A2 & A3).
  destruct (receive_corr_ok st False m w j iv r ds ss up lo C Hin Ei A1 A2 A3) as (m1 & R1 & C1 & _ & _ & ER & _ & _ & _ & EL & _ & EO & d & d' & Ed & Ed' & HE & _).
  rewrite R in R1. injection R1 as <-.
  pose proof (ci_branches _ _ _ C _ d Ed) as BO. destruct (bo_hist _ _ _ _ _ BO) as (h & Hh & Hhj).
  destruct (reachable_inv d (bhist_reachable _ _ Hh)) as (c & I).
  destruct (bo_run _ _ _ _ _ BO w j Hin eq_refl) as (e & Ha & El).
  pose proof (ci_kinds _ _ _ C _ _ Hin) as Hk. unfold kind_ok in Hk. rewrite Ei in Hk.
  assert (Hc : correction e) by (unfold correction; lia). assert (Hr : result_ok ds ss) by (split; auto).
  assert (Hdesc : describes d (j_ID j) e (j_dt j) (j_start j) (j_prev j)).
  { destruct Hh as (ml' & tol' & d0 & Hc0 & Hh). pose proof (Hhj w j Hin eq_refl) as Hi.
    apply in_split in Hi as (h1 & h2 & ->). eapply (popped_job_valid d0); eauto. eapply created_inv; eauto. }
  destruct (RF w j d e Hin Ed Ha) as (iv' & r' & E1 & Href). rewrite Ei in E1. injection E1 as <- <-.
  cbn [exec] in HE. destruct (submit d (j_ID j) ds ss up lo) as [d1|] eqn:Hs; [|discriminate]. cbn [rbind] in HE. injection HE as <-.
  assert (NDw : NoDup (map fst (mn_running m))).
  { pose proof (ci_workers _ _ _ C) as ND. clear -ND. induction (mn_workers m); auto. inversion ND; auto. }
  destruct (dropRunning_spec w j _ NDw Hin) as [PD _].
  constructor; [exact C1| |].
  - intros w' j' dd e' Hin' Hd' Ha'. rewrite ER in Hin'.
    assert (Hin0 : In (w', j') (mn_running m)) by (apply (Permutation_in _ (Permutation_sym PD)); right; exact Hin').
    destruct (Nat.eq_dec (j_branch j') (j_branch j)) as [Hbj|Hne].
    + rewrite Hbj, Ed' in Hd'. injection Hd' as <-.
      destruct e as [[xl xh] lev]. pose proof (active_nfind _ _ _ _ I Ha) as Hf.
      destruct (complete_inv d c (j_ID j) lev xl xh ds ss up lo d1 I Hf Hc Hr Hs) as (pre & a & b & post & Ec & _ & _ & _ & I' & _ & J & _).
      assert (Ha0 : active d (j_ID j') e').
      { unfold active, finishJob in *. cbn [d_jobs with_jobs] in Ha'. apply nerase_incl in Ha'. rewrite J in Ha'. exact Ha'. }
      destruct (RF w' j' d e' Hin0 ltac:(rewrite Hbj; exact Ed) Ha0) as (iv' & r' & E1 & E2). exists iv', r'. split; [exact E1|].
      destruct (entry_points d c e' I) as (qa & qb & _ & Iqb & _ & Eqb); [unfold entries; apply in_or_app; right; apply (in_map snd _ (j_ID j', e')); exact Ha0|].
      rewrite Eqb in *. rewrite (sols_find _ _ _ I Iqb) in E2. rewrite <- E2.
      assert (Hq : exists q', In q' (spliced pre a b post lev ds ss) /\ px q' = px qb /\ ps q' = ps qb).
      { rewrite Ec in Iqb. unfold spliced. apply in_app_or in Iqb as [Iq|[<-|Iq]].
        - exists qb. split; [apply in_or_app; auto|auto].
        - exists a. split; [apply in_or_app; right; left; auto|auto].
        - exists (shift (Rsum ds - (pt b - pt a)) qb). split; [|auto]. apply in_or_app. right. right. apply in_or_app. right. apply in_map. exact Iq. }
      destruct Hq as (q' & Hq & <- & <-). apply (sols_find _ _ _ I' Hq).
    + rewrite EO in Hd' by auto. exact (RF w' j' dd e' Hin0 Hd' Ha').
  - split; [congruence|]. intros b dd f Hb Hf. destruct (Nat.eq_dec b (j_branch j)) as [->|Hne].
    + rewrite Ed' in Hb. injection Hb as <-. apply (fate_complete d d1 c (j_ID j) e (j_dt j) (j_start j) (j_prev j) r ds ss up lo); auto; [rewrite El; exact Hby|]. eapply FT; eauto.
    + rewrite EO in Hb by auto. eapply FT; eauto.
Qed.

Lemma fates_exist (c : list data) : Forall (fun d => exists k, Inv d k) c -> exists F, length c = length F /\ forall b d f, nth_error c b = Some d -> nth_error F b = Some f -> fate d f.
Proof.
  induction c as [|d c IH]; intros H; [exists []; split; [reflexivity|]; intros [|b] d f E; discriminate|].
  inversion H as [|? ? (k & I) H']; subst. destruct (IH H') as (F & L & FT). destruct (fate_of _ _ I) as (f & Hf).
  exists (f :: F). split; [cbn; congruence|]. intros [|b] d' f' E E'; cbn in E, E'; [congruence|eauto].
Qed.
Lemma order_exec F P c m0 tr m : prepared st c -> (length c = length F /\ forall b d f, nth_error c b = Some d -> nth_error F b = Some f -> fate d f) ->
  startMain st [] P c = Ok m0 -> execution st m0 tr m -> Forall byWork tr -> OInv F m.
Proof.
  intros Hp HF H0 HX. assert (O0 : OInv F m0).
  { unfold startMain, dispatchAll in H0. refine (dispatchLoop_keeps F _ _ _ _ H0). constructor; [apply prepared_inv; auto; apply seq_NoDup| |exact HF]. intros w j d e []. }
  induction HX as [|tr m w j a m' HX IH Hin Ha HR]; intros HB; [exact O0|]. apply Forall_app in HB as [HB1 HB2]. inversion HB2 as [|? ? HB3 _]; subst.
  unfold round in HR. destruct (receive st m w a) as [m1|] eqn:ER; [|discriminate]. cbn [rbind] in HR.
  apply (dispatchLoop_keeps F _ _ _ (receive_keeps F m w j a m1 (IH HB1) Hin Ha HB3 ER) HR).
Qed.
Lemma order_end F m : OInv F m -> mn_running m = [] -> cEmpty (mn_data m) = true -> forall b d, nth_error (mn_data m) b = Some d -> segs d = [].
Proof.
  intros [C _ _] HR HE b d Hb. pose proof (ci_branches _ _ _ C b d Hb) as BO. unfold segs, entries.
  assert (Q : d_queue d = []). { unfold cEmpty in HE. rewrite forallb_forall in HE. specialize (HE d (nth_error_In _ _ Hb)). unfold isEmpty in HE. destruct (d_queue d); [reflexivity|discriminate]. }
  assert (J : d_jobs d = []). { destruct (d_jobs d) as [|[id e] l] eqn:E; [reflexivity|]. exfalso.
    destruct (bo_active _ _ _ _ _ BO id e) as (w & j & H & _); [unfold active; rewrite E; left; auto|]. rewrite HR in H. destruct H. }
  rewrite Q, J. reflexivity.
Qed.

(** ** the number of jobs *)
Lemma nth_error_ext {A} (l : list A) : forall l', (forall k, nth_error l k = nth_error l' k) -> l = l'.
Proof.
  induction l as [|x l IH]; intros [|y l'] H; auto; try (specialize (H 0%nat); discriminate).
  f_equal; [specialize (H 0%nat); cbn in H; congruence|]. apply IH. intros k. exact (H (S k)).
Qed.
Variable n : nat.
Definition total (c : list data) : nat := list_sum (map (measure n) c).
Lemma total_set c : forall b d d', nth_error c b = Some d -> (total (setBranch c b d') + measure n d = total c + measure n d')%nat.
Proof.
  unfold total. induction c as [|x c IH]; intros [|b] d d' H; try discriminate; cbn in H.
  - injection H as ->. cbn. lia.
  - specialize (IH b d d' H). cbn [setBranch map list_sum fold_right] in *. unfold list_sum in *. lia.
Qed.
Definition fewSols (x : nat * job * answer) : Prop := match snd x with ACorr _ ss _ _ => (length ss <= n)%nat | _ => True end.
Record NInv (N : nat) (m : main) : Prop := mkNI { ni_core : CInv st False m; ni_total : (mn_it m + total (mn_data m) <= N)%nat }.
Lemma dispatchLoop_total N fuel : forall m m', NInv N m -> dispatchLoop st fuel m = Ok m' -> NInv N m'.
Proof.
  induction fuel as [|k IH]; intros m m' O H; cbn [dispatchLoop] in H; destruct (canDispatch st m) eqn:E; try discriminate; try (injection H as <-; exact O).
  destruct (dispatch st m) as [m1|] eqn:D; [|discriminate]. cbn [rbind] in H. apply (IH m1); [|exact H]. destruct O as [C T].
  destruct (dispatch_view m m1 C E D) as (C1 & EI & b & d & c & d1 & d2 & id & dt & start & prev & xl & xh & lv & pb & w & iv &
    Hbl & Hb & BO & I & P & Eid & I1 & J & Ib & Ebx & S & I2 & EJ2 & ED & ER).
  constructor; [exact C1|]. rewrite EI, ED. pose proof (total_set _ _ _ d2 Hb) as TS.
  assert (M1 : (measure n d1 + 1 <= measure n d)%nat).
  { assert (X : exec d CPop = Ok (d1, OPop id dt start prev)) by (cbn [exec]; rewrite P; reflexivity).
    pose proof (measure_step n d c CPop _ d1 I Logic.I Logic.I X) as M. cbn [cost] in M. lia. }
  assert (M2 : measure n d2 = measure n d1) by (destruct S as (tm & xm & -> & _); reflexivity). lia.
Qed.
Lemma receive_total N m w j a m' : NInv N m -> In (w, j) (mn_running m) -> acceptable j a -> fewSols (w, j, a) -> receive st m w a = Ok m' -> NInv N m'.
Proof.
  intros [C T] Hin Hacc Hfew R. unfold acceptable in Hacc. pose proof (ci_kinds _ _ _ C _ _ Hin) as Hk. unfold kind_ok in Hk.
  destruct (j_info j) as [|iv r] eqn:Ei; [rewrite Hst in Hk; destruct Hk; discriminate|].
  destruct a as [ds ss up lo|]; [|destruct Hacc]. destruct Hacc as (A1 & A2 & A3).
  destruct (receive_corr_ok st False m w j iv r ds ss up lo C Hin Ei A1 A2 A3) as (m1 & R1 & C1 & EI & _ & ER & _ & _ & _ & EL & _ & EO & d & d' & Ed & Ed' & HE & _).
  rewrite R in R1. injection R1 as <-. constructor; [exact C1|]. rewrite EI.
  pose proof (ci_branches _ _ _ C _ d Ed) as BO. destruct (bo_hist _ _ _ _ _ BO) as (h & Hh & Hhj).
  destruct (reachable_inv d (bhist_reachable _ _ Hh)) as (c & I).
  destruct (bo_run _ _ _ _ _ BO w j Hin eq_refl) as (e & Ha & El).
  assert (HA : allowed d (CComplete (j_ID j) ds ss up lo)) by (cbn; split; [exists e; split; [apply (active_nfind _ _ _ _ I Ha)|lia]|auto]).
  pose proof (measure_step n d c _ _ d' I HA Hfew HE) as M. cbn [cost] in M.
  assert (ED : mn_data m' = setBranch (mn_data m) (j_branch j) d').
  { assert (Hbl : (j_branch j < length (mn_data m))%nat) by (apply nth_error_Some; congruence). apply nth_error_ext. intros b.
    destruct (Nat.eq_dec (j_branch j) b) as [<-|Hne]; [rewrite setBranch_same by auto; exact Ed'|rewrite setBranch_other by auto; apply EO; auto]. }
  rewrite ED. pose proof (total_set _ _ _ d' Ed) as TS. clear - M TS T. lia.
Qed.
Lemma jobs_bound P c m0 tr m : prepared st c -> startMain st [] P c = Ok m0 -> execution st m0 tr m -> Forall fewSols tr -> (mn_it m + total (mn_data m) <= total c)%nat.
Proof.
  intros Hp H0 HX HB. enough (NInv (total c) m) by (apply H). assert (O0 : NInv (total c) m0).
  { unfold startMain, dispatchAll in H0. refine (dispatchLoop_total _ _ _ _ _ H0). constructor; [apply prepared_inv; auto; apply seq_NoDup|]. cbn [mn_it mn_data]. rewrite Nat.add_0_l. apply Nat.le_refl. }
  induction HX as [|tr m w j a m' HX IH Hin Ha HR]; [exact O0|]. apply Forall_app in HB as [HB1 HB2]. inversion HB2 as [|? ? HB3 _]; subst.
  unfold round in HR. destruct (receive st m w a) as [m1|] eqn:ER; [|discriminate]. cbn [rbind] in HR.
  apply (dispatchLoop_total _ _ _ _ (receive_total _ m w j a m1 (IH HB1) Hin Ha HB3 ER) HR).
Qed.
End OrderExec.
