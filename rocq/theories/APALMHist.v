(** Consequences of the invariant, in the vocabulary of APALMSpec. *)
From Verif Require Import Prelude APALMData APALMDataProofs APALMDataInv APALMSpec.
Local Open Scope R_scope.

Lemma Adj_neighbours l a b : Adj l a b <-> neighbours l a b.
Proof.
  split.
  - intros (p & q & ->). exists (length p). rewrite !nth_error_app2 by lia.
    rewrite Nat.sub_diag. replace (S (length p) - length p)%nat with 1%nat by lia. auto.
  - intros (k & H1 & H2). apply nth_error_split in H1 as (l1 & l2 & -> & <-).
    rewrite nth_error_app2 in H2 by lia.
    replace (S (length l1) - length l1)%nat with 1%nat in H2 by lia.
    destruct l2 as [|y l2]; [discriminate|]. injection H2 as ->. exists l1, l2. auto.
Qed.

Lemma gaps_app P x Q : gaps (P ++ x :: Q) = gaps (P ++ [x]) ++ gaps (x :: Q).
Proof.
  induction P as [|y P IH]; [reflexivity|].
  destruct P as [|z P]; [reflexivity|].
  cbn [app gaps] in *. rewrite IH. reflexivity.
Qed.
Lemma gaps_timePoints t ds : gaps (timePoints t ds) = ds.
Proof.
  revert t. induction ds as [|d ds IH]; intros t; [reflexivity|].
  cbn [timePoints]. destruct (timePoints_hd (t + d) ds) as [l E].
  pose proof (IH (t + d)) as IH'. rewrite E in *.
  change (gaps (t :: t + d :: l)) with ((t + d - t) :: gaps (t + d :: l)). rewrite IH'. f_equal. lra.
Qed.
Lemma gaps_shift c l : gaps (map (fun x => x + c) l) = gaps l.
Proof.
  induction l as [|x l IH]; [reflexivity|]. destruct l as [|y l]; [reflexivity|].
  cbn [map gaps] in *. rewrite IH. f_equal. lra.
Qed.
Lemma gaps_length l : length (gaps l) = (length l - 1)%nat.
Proof.
  induction l as [|x l IH]; auto. destruct l as [|y l]; auto. cbn [gaps length] in *. rewrite IH. lia.
Qed.
Lemma runningSums_eq t ds : runningSums t ds = timePoints t ds.
Proof. revert t. induction ds; intros; cbn; congruence. Qed.
Lemma neighbourPairs_eq l : neighbourPairs l = consecutive l.
Proof. induction l as [|x l IH]; auto. destruct l; auto. cbn in *. congruence. Qed.
Lemma consecutive_map (f : R -> R) l :
  map (fun e => (f (fst e), f (snd e))) (consecutive l) = consecutive (map f l).
Proof.
  induction l as [|x l IH]; auto. destruct l as [|y l]; auto.
  cbn [consecutive map fst snd] in *. rewrite IH. reflexivity.
Qed.

Section Hist.
Context {sol : Type}.
Notation data := (data sol).

Lemma timeAt_val (d : data) c p : Rep d c -> In p c -> timeAt d (px p) = pt p.
Proof. apply readTime_val. Qed.

Lemma times_eq (d : data) c : Rep d c -> times d = map pt c.
Proof. intros H. unfold times. rewrite (flat_all _ _ H). reflexivity. Qed.
Lemma sols_eq (d : data) c : Rep d c -> sols d = map ps c.
Proof. intros H. unfold sols. rewrite (flat_all _ _ H). reflexivity. Qed.
Lemma levels_eq (d : data) c : Rep d c -> levels d = map pl c.
Proof. intros H. unfold levels. rewrite (flat_all _ _ H). reflexivity. Qed.

Lemma active_nfind (d : data) c id e : Inv d c -> active d id e -> nfind id (d_jobs d) = Some e.
Proof.
  intros I H. apply (mfind_NoDup _ Nat.eqb_eq); auto. apply I.
Qed.
Lemma nfind_active (d : data) id e : nfind id (d_jobs d) = Some e -> active d id e.
Proof. intros H. apply (mfind_in _ Nat.eqb_eq) in H. exact H. Qed.

Lemma segment_points (d : data) c e : Inv d c -> In e (waiting d ++ handedOut d) -> correction e ->
  exists pre a b post, c = pre ++ a :: b :: post /\ seg_lo e = px a /\ seg_hi e = px b.
Proof.
  intros I Hin Hc. pose proof (inv_entries _ _ I) as He. rewrite Forall_forall in He.
  destruct (He e Hin) as [(A & _)|(_ & A)]; [unfold correction in Hc; lia|].
  pose proof (inv_rep _ _ I) as (R1 & _). rewrite R1 in A. apply Adj_points; auto.
Qed.

Lemma seg_neighbours (d : data) c e : Inv d c -> In e (waiting d ++ handedOut d) -> correction e ->
  neighbours (times d) (fst (segTimes d e)) (snd (segTimes d e)).
Proof.
  intros I Hin Hc. destruct (segment_points d c e I Hin Hc) as (pre & a & b & post & -> & E1 & E2).
  pose proof (inv_rep _ _ I) as HR. unfold segTimes. cbn. rewrite E1, E2.
  rewrite (timeAt_val _ _ a HR), (timeAt_val _ _ b HR) by (apply in_or_app; right; cbn; auto).
  rewrite (times_eq _ _ HR). apply Adj_neighbours. rewrite map_app. exists (map pt pre), (map pt post). auto.
Qed.

Lemma times_incr (d : data) c : Inv d c -> incr (times d).
Proof. intros I. rewrite (times_eq _ _ (inv_rep _ _ I)). apply (inv_rep _ _ I). Qed.

Lemma seg_disjoint (d : data) c i j e e' : Inv d c -> i <> j ->
  nth_error (waiting d ++ handedOut d) i = Some e -> nth_error (waiting d ++ handedOut d) j = Some e' ->
  correction e -> correction e' ->
  snd (segTimes d e) <= fst (segTimes d e') \/ snd (segTimes d e') <= fst (segTimes d e).
Proof.
  intros I Hij Hi Hj Hc Hc'.
  pose proof (nth_error_In _ _ Hi) as Ii. pose proof (nth_error_In _ _ Hj) as Ij.
  pose proof (seg_neighbours d c e I Ii Hc) as N1. pose proof (seg_neighbours d c e' I Ij Hc') as N2.
  apply Adj_neighbours in N1. apply Adj_neighbours in N2.
  pose proof (times_incr d c I) as Hinc.
  (* equal lower ends are impossible *)
  assert (Hne : fst (segTimes d e) <> fst (segTimes d e')).
  { intros E.
    destruct (segment_points d c e I Ii Hc) as (pre & a & b & post & Ec & E1 & E2).
    destruct (segment_points d c e' I Ij Hc') as (pre' & a' & b' & post' & Ec' & E1' & E2').
    pose proof (inv_rep _ _ I) as HR.
    assert (Ia : In a c) by (rewrite Ec; apply in_or_app; right; cbn; auto).
    assert (Ia' : In a' c) by (rewrite Ec'; apply in_or_app; right; cbn; auto).
    unfold segTimes in E. cbn in E. rewrite E1, E1' in E.
    rewrite (timeAt_val _ _ a HR Ia), (timeAt_val _ _ a' HR Ia') in E.
    assert (Eaa : px a = px a').
    { destruct I as [_ _ _ [Hxm _] _ _ _ _ _ _ _].
      rewrite <- (Hxm a Ia), <- (Hxm a' Ia'), E. reflexivity. }
    assert (ND := inv_nodup _ _ I). unfold segs, entries in ND.
    fold (handedOut d) in ND. change (d_queue d) with (waiting d) in ND.
    revert ND Hi Hj Hij. generalize (waiting d ++ handedOut d). intros l ND Hi Hj Hij.
    assert (G : forall l i j e e', NoDup (map seg_lo (filter isSeg l)) -> (i < j)%nat ->
       nth_error l i = Some e -> nth_error l j = Some e' -> correction e -> correction e' ->
       seg_lo e <> seg_lo e').
    { clear. induction l as [|x l IH]; intros i j e e' ND Hlt Hi Hj Hc Hc'; [destruct i; discriminate|].
      destruct j as [|j]; [lia|]. cbn [nth_error] in Hj. destruct i as [|i].
      - injection Hi as ->. cbn [filter] in ND.
        assert (isSeg e = true) as E by (apply Z.leb_le; exact Hc). rewrite E in ND. cbn in ND.
        inversion ND as [|? ? Hn _]; subst. intros Heq. apply Hn. rewrite Heq.
        apply in_map, filter_In. split; [eapply nth_error_In; eauto|apply Z.leb_le; exact Hc'].
      - cbn [nth_error] in Hi. apply (IH i j); auto; [|lia].
        cbn [filter] in ND. destruct (isSeg x); auto. cbn in ND. inversion ND; auto. }
    destruct (Nat.lt_total i j) as [L|[L|L]]; [|congruence|].
    - apply (G l i j e e' ND L Hi Hj Hc Hc'). congruence.
    - apply (G l j i e' e ND L Hj Hi Hc' Hc). congruence. }
  destruct (Adj_none_between _ _ _ (fst (segTimes d e')) Hinc N1 (proj1 (Adj_in _ _ _ N2))) as [H|H]; [|auto].
  destruct (Adj_none_between _ _ _ (fst (segTimes d e)) Hinc N2 (proj1 (Adj_in _ _ _ N1))) as [H'|H']; auto.
  exfalso. apply Hne. lra.
Qed.

Lemma jobTimes_val (d : data) c id e : Inv d c -> active d id e -> snd (jobTimes d id) = segTimes d e.
Proof.
  intros I H. apply (active_nfind _ _ _ _ I) in H. unfold jobTimes. rewrite (readJob_known _ _ _ H).
  unfold segTimes, timeAt.
  pose proof (readTime_sim d (seg_lo e)) as (tm & xm & E & H1 & H2).
  destruct (readTime d (seg_lo e)) as [d1 t1]. cbn [fst snd] in *. subst d1.
  unfold readTime. cbn [d_tmap with_maps].
  pose proof (H1 (seg_hi e)) as E1. unfold tval in E1.
  destruct (rread 0 (seg_hi e) tm). destruct (rread 0 (seg_hi e) (d_tmap d)). cbn in *. congruence.
Qed.

(** ** submit in terms of the exported curve *)
Lemma submit_export (d : data) c id e ds ss up lo d' :
  Inv d c -> active d id e -> correction e -> result_ok ds ss ->
  submit d id ds ss up lo = Ok d' ->
  exists k tl th,
    snd (jobTimes d id) = (tl, th) /\
    nth_error (times d) k = Some tl /\ nth_error (times d) (S k) = Some th /\
    sols d' = firstn (S k) (sols d) ++ ss ++ skipn (S k) (sols d) /\
    levels d' = firstn (S k) (levels d) ++ repeat (seg_lev e) (length ss) ++ skipn (S k) (levels d) /\
    firstn (S k) (times d') = firstn (S k) (times d) /\
    gaps (times d') = firstn k (gaps (times d)) ++ ds ++ skipn (S k) (gaps (times d)) /\
    incr (times d').
Proof.
  intros I Ha Hc Hr Hs. destruct e as [[xl xh] lev].
  pose proof (active_nfind _ _ _ _ I Ha) as Hf.
  destruct (complete_inv d c id lev xl xh ds ss up lo d' I Hf Hc Hr Hs)
    as (pre & a & b & post & Ec & E1 & E2 & Hck & I' & Q & J & _ & _ & _ & _ & _ & _ & HR' & _).
  pose proof (inv_rep _ _ I) as HR. pose proof Hr as [Hlen Hpos].
  assert (Ia : In a c) by (rewrite Ec; apply in_or_app; right; cbn; auto).
  assert (Ib : In b c) by (rewrite Ec; apply in_or_app; right; cbn; auto).
  exists (length pre), (pt a), (pt b).
  rewrite (jobTimes_val _ _ _ _ I Ha). unfold segTimes. cbn [seg_lo seg_hi fst snd].
  rewrite E1, E2, (timeAt_val _ _ _ HR Ia), (timeAt_val _ _ _ HR Ib).
  rewrite (times_eq _ _ HR), (sols_eq _ _ HR), (levels_eq _ _ HR).
  rewrite (times_eq _ _ HR'), (sols_eq _ _ HR'), (levels_eq _ _ HR').
  assert (F : forall A (g : @point sol -> A), firstn (S (length pre)) (map g c) = map g (pre ++ [a])).
  { intros A g. rewrite Ec. replace (pre ++ a :: b :: post) with ((pre ++ [a]) ++ b :: post)
      by (rewrite <- app_assoc; reflexivity).
    rewrite map_app. replace (S (length pre)) with (length (map g (pre ++ [a])) + 0)%nat
      by (rewrite map_length, app_length; cbn; lia).
    rewrite firstn_app_2. cbn. apply app_nil_r. }
  assert (K : forall A (g : @point sol -> A), skipn (S (length pre)) (map g c) = map g (b :: post)).
  { intros A g. rewrite Ec. replace (pre ++ a :: b :: post) with ((pre ++ [a]) ++ b :: post)
      by (rewrite <- app_assoc; reflexivity).
    rewrite map_app. replace (S (length pre)) with (length (map g (pre ++ [a])))
      by (rewrite map_length, app_length; cbn; lia).
    rewrite skipn_app, skipn_all, Nat.sub_diag. reflexivity. }
  split; [reflexivity|]. split; [|split; [|split; [|split; [|split; [|split]]]]].
  - rewrite Ec, map_app. rewrite nth_error_app2 by (rewrite map_length; lia).
    rewrite map_length, Nat.sub_diag. reflexivity.
  - rewrite Ec, map_app. rewrite nth_error_app2 by (rewrite map_length; lia).
    rewrite map_length. replace (S (length pre) - length pre)%nat with 1%nat by lia. reflexivity.
  - rewrite F, K, spliced_map, newPoints_ps
      by (rewrite ?(midX_length a b ds ss Hlen), ?(midT_length a ds ss Hlen); reflexivity). reflexivity.
  - rewrite F, K, spliced_map, newPoints_pl
      by (rewrite ?(midX_length a b ds ss Hlen), ?(midT_length a ds ss Hlen); reflexivity).
    reflexivity.
  - rewrite F, spliced_pt by auto. replace (S (length pre)) with (length (map pt (pre ++ [a])) + 0)%nat
      by (rewrite map_length, app_length; cbn; lia). rewrite firstn_app_2. cbn. apply app_nil_r.
  - rewrite spliced_pt by auto. rewrite map_app. cbn [map].
    assert (Et : (map pt pre ++ [pt a]) ++ midT a ds ++
                 (pt b + (Rsum ds - (pt b - pt a))) :: map (fun x => x + (Rsum ds - (pt b - pt a))) (map pt post)
               = map pt pre ++ pt a :: midT a ds ++ (pt a + Rsum ds) ::
                 map (fun x => x + (Rsum ds - (pt b - pt a))) (map pt post)).
    { rewrite <- app_assoc. cbn.
      replace (pt b + (Rsum ds - (pt b - pt a))) with (pt a + Rsum ds) by lra. reflexivity. }
    rewrite Et, gaps_app.
    change (pt a :: midT a ds ++ (pt a + Rsum ds) :: map (fun x => x + (Rsum ds - (pt b - pt a))) (map pt post))
      with ((pt a :: midT a ds) ++ (pt a + Rsum ds) :: map (fun x => x + (Rsum ds - (pt b - pt a))) (map pt post)).
    rewrite (gaps_app (pt a :: midT a ds)).
    assert (Hds : ds <> []) by (destruct ds; [discriminate|congruence]).
    replace ((pt a :: midT a ds) ++ [pt a + Rsum ds]) with (timePoints (pt a) ds)
      by (rewrite (timePoints_split (pt a) ds Hds) at 1; reflexivity).
    rewrite gaps_timePoints.
    replace (pt a + Rsum ds) with (pt b + (Rsum ds - (pt b - pt a))) by lra.
    change (pt b + (Rsum ds - (pt b - pt a)) :: map (fun x => x + (Rsum ds - (pt b - pt a))) (map pt post))
      with (map (fun x => x + (Rsum ds - (pt b - pt a))) (map pt (b :: post))).
    rewrite gaps_shift. rewrite Ec, map_app. cbn [map]. rewrite (gaps_app (map pt pre) (pt a) (pt b :: map pt post)).
    assert (Lg : length (gaps (map pt pre ++ [pt a])) = length pre)
      by (rewrite gaps_length, app_length, map_length; cbn; lia).
    f_equal; [|f_equal].
    + replace (length pre) with (length (gaps (map pt pre ++ [pt a])) + 0)%nat by lia.
      rewrite firstn_app_2. cbn. rewrite app_nil_r. reflexivity.
    + rewrite skipn_app, Lg. rewrite skipn_all2 by lia.
      replace (S (length pre) - length pre)%nat with 1%nat by lia. reflexivity.
  - apply HR'.
Qed.

(** submit accepts exactly the results that pass its length check *)
Lemma submit_accepts (d : data) c id e ds ss up lo :
  Inv d c -> active d id e -> correction e -> result_ok ds ss ->
  (exists d', submit d id ds ss up lo = Ok d') <->
  let '(tl, th) := snd (jobTimes d id) in (th - tl - Rsum (removelast ds)) / (th - tl) < 1 / 10 ^ 12.
Proof.
  intros I Ha Hc Hr. destruct e as [[xl xh] lev].
  pose proof (active_nfind _ _ _ _ I Ha) as Hf.
  rewrite (jobTimes_val _ _ _ _ I Ha). unfold segTimes. cbn [seg_lo seg_hi fst snd].
  assert (Hin : In (xl, xh, lev) (waiting d ++ handedOut d)).
  { apply in_or_app; right. apply in_map_iff. exists (id, (xl, xh, lev)). auto. }
  destruct (segment_points d c _ I Hin Hc) as (pre & a & b & post & Ec & E1 & E2).
  cbn in E1, E2. subst xl xh. pose proof (inv_rep _ _ I) as HR.
  rewrite (timeAt_val _ _ a HR), (timeAt_val _ _ b HR) by (rewrite Ec; apply in_or_app; right; cbn; auto).
  subst c. split.
  - intros (d' & Hs).
    destruct (complete_inv d _ id lev (px a) (px b) ds ss up lo d' I Hf Hc Hr Hs)
      as (pre' & a' & b' & post' & Ec' & Ea & Eb & Hck & _).
    assert (Ia : pt a = pt a').
    { rewrite <- (timeAt_val _ _ a HR), <- (timeAt_val _ _ a' HR); [congruence|rewrite Ec'|];
      apply in_or_app; right; cbn; auto. }
    assert (Ib : pt b = pt b').
    { rewrite <- (timeAt_val _ _ b HR), <- (timeAt_val _ _ b' HR); [congruence|rewrite Ec'|];
      apply in_or_app; right; cbn; auto. }
    rewrite Ia, Ib. exact Hck.
  - intros Hck. destruct (submit_ok d pre a b post id lev ds ss up lo HR) as (d' & E & _); eauto.
    apply (inv_init _ _ I).
Qed.

(** which sub-segments are queued *)
Lemma submit_queue (d : data) c id e ds ss up lo d' :
  Inv d c -> active d id e -> correction e -> result_ok ds ss ->
  submit d id ds ss up lo = Ok d' ->
  exists tl th new,
    snd (jobTimes d id) = (tl, th) /\
    waiting d' = waiting d ++ new /\
    Forall (fun e' => seg_lev e' = (seg_lev e + 1)%Z) new /\
    map (segTimes d') new =
      (let subs := neighbourPairs (runningSums tl ds) in
       let low := (th - tl - lo) / (th - tl) in
       let upp := (Rsum ds - up - (th - tl - lo)) / (th - tl) in
       if (seg_lev e <? d_maxLevel d)%Z then
         match Rltb low (d_tol d), Rltb upp (d_tol d) with
         | false, false => subs
         | true, false => [last subs (0, 0)]
         | false, true => removelast subs
         | true, true => []
         end
       else []).
Proof.
  intros I Ha Hc Hr Hs. destruct e as [[xl xh] lev].
  pose proof (active_nfind _ _ _ _ I Ha) as Hf.
  destruct (complete_inv d c id lev xl xh ds ss up lo d' I Hf Hc Hr Hs)
    as (pre & a & b & post & Ec & E1 & E2 & Hck & I' & Q & J & _ & _ & _ & _ & _ & _ & HR' & _).
  pose proof (inv_rep _ _ I) as HR. pose proof Hr as [Hlen Hpos].
  assert (Ia : In a c) by (rewrite Ec; apply in_or_app; right; cbn; auto).
  assert (Ib : In b c) by (rewrite Ec; apply in_or_app; right; cbn; auto).
  exists (pt a), (pt b).
  rewrite (jobTimes_val _ _ _ _ I Ha). unfold segTimes at 1. cbn [seg_lo seg_hi fst snd].
  rewrite E1, E2, (timeAt_val _ _ _ HR Ia), (timeAt_val _ _ _ HR Ib).
  eexists. split; [reflexivity|]. split; [exact Q|].
  rewrite newSegments_eq by (cbn; rewrite app_length; cbn; lia).
  set (xs := px a :: midX a b ds ++ [px b]).
  assert (Hx : map (timeAt d') xs = timePoints (pt a) ds).
  { assert (Hds : ds <> []) by (destruct ds; [discriminate|congruence]).
    rewrite (timePoints_split (pt a) ds Hds). fold (midT a ds). unfold xs.
    set (sp := spliced pre a b post lev ds ss) in *.
    assert (G : forall p, In p sp -> timeAt d' (px p) = pt p) by (intros; eapply timeAt_val; eauto).
    unfold sp, spliced in G. fold (midT a ds) in G. fold (midX a b ds) in G.
    cbn [map]. f_equal.
    - apply (G a). apply in_or_app; right; left; auto.
    - rewrite map_app. f_equal.
      + rewrite <- (newPoints_px lev (ps a) (midX a b ds) (midT a ds) ss)
          by (rewrite ?(midX_length a b ds ss Hlen), ?(midT_length a ds ss Hlen); reflexivity).
        rewrite <- (newPoints_pt lev (ps a) (midX a b ds) (midT a ds) ss) at 2
          by (rewrite ?(midX_length a b ds ss Hlen), ?(midT_length a ds ss Hlen); reflexivity).
        rewrite map_map. apply map_ext_in. intros p Hp. apply G.
        apply in_or_app; right. right. apply in_or_app; left. exact Hp.
      + cbn [map]. f_equal. change (px b) with (px (shift (Rsum ds - (pt b - pt a)) b)).
        rewrite (G (shift (Rsum ds - (pt b - pt a)) b)); [cbn; lra|].
        apply in_or_app; right. right. apply in_or_app; right. left. reflexivity. }
  rewrite runningSums_eq, neighbourPairs_eq, <- Hx, <- consecutive_map. cbn [seg_lev snd].
  destruct (lev <? d_maxLevel d)%Z; [|split; [constructor|reflexivity]].
  assert (Hl : forall l, Forall (fun e' => seg_lev e' = (lev + 1)%Z)
                 (map (fun e : R * R => (fst e, snd e, (lev + 1)%Z)) l)).
  { intros l. rewrite Forall_map. rewrite Forall_forall. intros; reflexivity. }
  assert (Hm : forall l, map (segTimes d') (map (fun e : R * R => (fst e, snd e, (lev + 1)%Z)) l) =
                         map (fun e => (timeAt d' (fst e), timeAt d' (snd e))) l).
  { intros l. rewrite map_map. reflexivity. }
  assert (Hne : consecutive xs <> []) by (unfold xs; destruct (midX a b ds); discriminate).
  split; [apply Hl|]. rewrite Hm.
  destruct (Rltb _ _), (Rltb _ _); try reflexivity.
  - destruct (exists_last Hne) as (l' & y & E). rewrite E, map_app. cbn [map]. rewrite !last_last. reflexivity.
  - destruct (exists_last Hne) as (l' & y & E). rewrite E, map_app. cbn [map]. rewrite !removelast_last. reflexivity.
Qed.

(** ** a job keeps its description *)
Definition describes (d : data) (id : nat) (e : segment) (dt : R) (start prev : sol) : Prop :=
  nfind id (d_jobs d) = Some e /\
  (exists k, nth_error (times d) k = Some (timeAt d (seg_lo e)) /\ nth_error (sols d) k = Some start) /\
  rfind (seg_lo e) (d_prevs d) = Some prev /\
  (correction e -> timeAt d (seg_hi e) - timeAt d (seg_lo e) = dt).

(** the same, in terms of curve points *)
Definition described (d : data) c (id : nat) (e : segment) (dt : R) (start prev : sol) : Prop :=
  nfind id (d_jobs d) = Some e /\
  exists a b, In a c /\ In b c /\ seg_lo e = px a /\ seg_hi e = px b /\ ps a = start /\ pp a = prev /\
    (correction e -> pt b - pt a = dt).

Lemma described_describes d c id e dt start prev :
  Inv d c -> described d c id e dt start prev -> describes d id e dt start prev.
Proof.
  intros I (Hf & a & b & Ia & Ib & E1 & E2 & E3 & E4 & E5). pose proof (inv_rep _ _ I) as HR.
  unfold describes. rewrite E1, E2, (timeAt_val _ _ _ HR Ia), (timeAt_val _ _ _ HR Ib).
  rewrite (times_eq _ _ HR), (sols_eq _ _ HR). split; [auto|]. split; [|split; [|exact E5]].
  - apply In_nth_error in Ia as [k Hk]. exists k.
    rewrite (map_nth_error pt _ _ Hk), (map_nth_error ps _ _ Hk). split; congruence.
  - pose proof HR as (R1&R2&R3&R4&R5&R6&R7&R8). rewrite R4, (rfind_map_in c pp a R6 Ia). congruence.
Qed.

Lemma described_step d c k o d' id e dt start prev :
  Inv d c -> (id < d_ID d)%nat -> described d c id e dt start prev -> allowed d k -> exec d k = Ok (d', o) ->
  exists c', Inv d' c' /\ (id < d_ID d')%nat /\
   (nfind id (d_jobs d') = None \/ described d' c' id e dt start prev).
Proof.
  intros I Hid (Hf & a & b & Ia & Ib & E1 & E2 & E3 & E4 & E5) HA H.
  assert (Same : forall d' c', nfind id (d_jobs d') = Some e -> incl c c' -> described d' c' id e dt start prev).
  { intros d2 c2 H1 H2. split; auto. exists a, b. repeat split; auto. }
  assert (Er : forall id', id <> id' -> nfind id (nerase id' (d_jobs d)) = Some e).
  { intros id' Hn. apply (mfind_NoDup _ Nat.eqb_eq).
    - apply nerase_nodup, (inv_jobs _ _ I).
    - apply (in_merase _ Nat.eqb_eq). split; [|exact Hn]. apply (mfind_in _ Nat.eqb_eq). exact Hf. }
  assert (Ern : nfind id (nerase id (d_jobs d)) = None).
  { apply (mfind_none Nat.eqb Nat.ltb Nat.eqb_eq). intros Hin. apply in_map_iff in Hin as (x & Ex & Hx).
    apply (in_merase _ Nat.eqb_eq) in Hx as [_ Hx]. congruence. }
  destruct k; cbn [exec allowed] in *.
  - destruct (pop d) as [[d1 [[[id1 dt1] start1] prev1]]|] eqn:E; [|discriminate].
    cbn [rbind] in H. injection H as <- <-.
    destruct (pop_inv _ _ _ _ _ _ _ I E) as (I' & -> & xl & xh & lv & q & a1 & b1 & _ & _ & EJ & EI & _).
    exists c. rewrite EI. split; [auto|]. split; [lia|]. right. apply Same; auto using incl_refl.
    rewrite EJ. revert Hf. generalize (d_jobs d). intros l. induction l as [|[k v] l IH]; cbn; [discriminate|].
    destruct (Nat.eqb id k); auto.
  - destruct HA as ((e' & He & Hl) & Hr). destruct e' as [[lo0 hi0] lev].
    destruct (submit d id0 ds ss up lo) as [d1|] eqn:E; [|discriminate].
    cbn [rbind] in H. injection H as <- <-.
    destruct (complete_inv d c id0 lev lo0 hi0 ds ss up lo d1 I He Hl Hr E)
      as (pre & a0 & b0 & post & Ec & Ea & Eb & _ & I' & _ & EJ & EI & _).
    exists (spliced pre a0 b0 post lev ds ss). split; [auto|].
    unfold finishJob at 1 2. cbn [d_ID d_jobs with_jobs]. rewrite EJ, EI. split; [auto|].
    destruct (Nat.eq_dec id id0) as [->|Hn]; [left; exact Ern|right].
    split; [unfold finishJob; cbn; rewrite EJ; auto|].
    (* the points of another job survive the splice *)
    set (dd := Rsum ds - (pt b0 - pt a0)).
    assert (Sp : forall p, In p c -> (In p (pre ++ [a0]) /\ In p (spliced pre a0 b0 post lev ds ss)) \/
                   (In p (b0 :: post) /\ In (shift dd p) (spliced pre a0 b0 post lev ds ss))).
    { intros p Hp. unfold spliced. fold dd. rewrite Ec in Hp. apply in_app_or in Hp as [Hp|[Hp|Hp]].
      - left. split; apply in_or_app; auto.
      - subst p. left. split; apply in_or_app; right; left; auto.
      - right. split; auto. apply in_or_app; right. right. apply in_or_app; right.
        apply (in_map (shift dd) (b0 :: post) p). exact Hp. }
    pose proof (inv_rep _ _ I) as HR. pose proof HR as (R1&R2&R3&R4&R5&R6&R7&R8).
    destruct (Z.le_gt_cases 1 (seg_lev e)) as [Hcor|Hcor].
    2:{ (* level 0 *) 
        destruct (Sp a Ia) as [[_ Ha]|[_ Ha]]; destruct (Sp b Ib) as [[_ Hb]|[_ Hb]];
        eexists; eexists; (split; [exact Ha|]); (split; [exact Hb|]); cbn;
        repeat split; auto; intros Hc'; unfold correction in Hc'; lia. }
    assert (Hin : In e (waiting d ++ handedOut d)).
    { apply in_or_app; right. apply in_map_iff. exists (id, e). split; auto. apply (mfind_in _ Nat.eqb_eq), Hf. }
    assert (Hlo : px a <> px a0).
    { intros Heq. assert (ND := inv_nodup _ _ I). unfold segs, entries in ND.
      destruct (nfind_split _ _ _ (inv_jobs _ _ I) He) as (j1 & j2 & EJ1 & EJ2).
      pose proof (Er id0 Hn) as Hf2. rewrite EJ2 in Hf2. apply (mfind_in _ Nat.eqb_eq) in Hf2.
      rewrite EJ1, map_app in ND. cbn [map snd] in ND.
      assert (P : Permutation (d_queue d ++ map snd j1 ++ (lo0, hi0, lev) :: map snd j2)
                  ((lo0, hi0, lev) :: d_queue d ++ map snd (j1 ++ j2))).
      { rewrite map_app, !app_assoc. symmetry. apply Permutation_middle. }
      assert (ND2 : NoDup (map seg_lo (filter isSeg ((lo0, hi0, lev) :: d_queue d ++ map snd (j1 ++ j2))))).
      { eapply Permutation_NoDup; [|exact ND]. apply Permutation_map. apply (filter_perm _ _ P). }
      cbn [filter] in ND2. assert (isSeg (lo0, hi0, lev) = true) as Hs0 by (apply Z.leb_le; exact Hl).
      rewrite Hs0 in ND2. cbn [map] in ND2. inversion ND2 as [|? ? Hnn _]; subst.
      apply Hnn. change (seg_lo (px a0, px b0, lev)) with (px a0). rewrite <- Heq, <- E1.
      apply in_map, filter_In. split; [|apply Z.leb_le; exact Hcor].
      apply in_or_app; right. apply (in_map snd _ (id, e)). exact Hf2. }
    assert (HA2 : Adj (map px c) (px a) (px b)).
    { pose proof (inv_entries _ _ I) as Hent. rewrite Forall_forall in Hent.
      destruct (Hent e Hin) as [(Z0 & _)|(_ & HA2)]; [lia|]. rewrite R1, E1, E2 in HA2. exact HA2. }
    assert (Ninc : forall u v, In u (pre ++ [a0]) -> In v (b0 :: post) -> px u < px v).
    { intros u v Hu Hv. rewrite Ec in R6.
      replace (pre ++ a0 :: b0 :: post) with ((pre ++ [a0]) ++ b0 :: post) in R6
        by (rewrite <- app_assoc; reflexivity).
      rewrite map_app in R6. apply incr_app in R6 as (_ & _ & R6). apply R6; apply in_map; auto. }
    destruct (Sp a Ia) as [[Ha1 Ha2]|[Ha1 Ha2]]; destruct (Sp b Ib) as [[Hb1 Hb2]|[Hb1 Hb2]].
    + exists a, b. repeat split; auto.
    + (* a before, b behind: then a = a0 *)
      exfalso. apply Hlo.
      assert (Ia0 : In (px a0) (map px c)) by (apply in_map; rewrite Ec; apply in_or_app; right; left; auto).
      destruct (Adj_none_between _ _ _ (px a0) R6 HA2 Ia0) as [L|L].
      * apply Rle_antisym; [|exact L].
        rewrite Ec in R6. replace (pre ++ a0 :: b0 :: post) with ((pre ++ [a0]) ++ b0 :: post) in R6
          by (rewrite <- app_assoc; reflexivity).
        rewrite map_app in R6. apply incr_app in R6 as (R6 & _). rewrite map_app in R6.
        apply incr_app in R6 as (_ & _ & R6). apply in_app_or in Ha1 as [Ha1|[<-|[]]]; [|lra].
        apply Rlt_le. apply R6; [apply in_map; auto|left; auto].
      * exfalso. assert (px a0 < px b); [|lra]. apply Ninc; auto. apply in_or_app; right; left; auto.
    + exfalso. assert (px b < px a) by (apply Ninc; auto).
      pose proof (Adj_lt _ _ _ R6 HA2). lra.
    + exists (shift dd a), (shift dd b). cbn. repeat split; auto. intros Hc'. specialize (E5 Hc'). lra.
  - injection H as <- <-. exists c. split; [apply finish_inv; auto|]. cbn. split; auto.
    destruct (Nat.eq_dec id id0) as [->|Hn]; [left; exact Ern|right]. apply Same; [apply Er, Hn|apply incl_refl].
  - destruct (appendData d t s prio) as [d1|] eqn:E; [|discriminate].
    cbn [rbind] in H. injection H as <- <-.
    destruct (appendData_inv d c t s prio d1 I E) as (p & x & y & I' & _ & _ & _ & _ & _ & _ & EJ & EI & _).
    exists (c ++ [p]). rewrite EI. split; [auto|]. split; [auto|]. right. apply Same; [rewrite EJ; auto|].
    intros z Hz. apply in_or_app; auto.
  - destruct (appendPoint d prio) as [d1|] eqn:E; [|discriminate].
    cbn [rbind] in H. injection H as <- <-.
    destruct (appendPoint_inv d c prio d1 I E) as (I' & EJ & EI & _).
    exists c. rewrite EI. split; [auto|]. split; [auto|]. right. apply Same; [rewrite EJ; auto|apply incl_refl].
  - injection H as <- <-. exists c. split; [destruct I; constructor; auto|]. cbn. split; auto.
    right. apply Same; auto using incl_refl.
  - rewrite HA in Hf. discriminate.
  - destruct HA as (e' & He). injection H as <- <-. exists c.
    unfold jobLevel, getReferenceByID. rewrite (readJob_known _ _ _ He). cbn [fst].
    rewrite (readJob_known _ _ _ He). cbn [fst].
    pose proof (jobTimes_sim _ _ _ He) as S. split; [eapply sim_inv; eauto|].
    destruct S as (tm & xm & -> & _). cbn. split; auto. right. apply Same; auto using incl_refl.
  - destruct HA as (e' & He). injection H as <- <-. exists c.
    unfold jobLevel, jobStartTime. rewrite (readJob_known _ _ _ He). cbn [fst].
    rewrite (readJob_known _ _ _ He).
    pose proof (readTime_sim d (seg_lo e')) as S. split; [eapply sim_inv; eauto|].
    destruct S as (tm & xm & -> & _). cbn. split; auto. right. apply Same; auto using incl_refl.
  - injection H as <- <-. exists c. destruct (flat_spec d c level (inv_rep _ _ I)) as [S _].
    split; [eapply sim_inv; eauto|]. destruct S as (tm & xm & -> & _). cbn. split; auto.
    right. apply Same; auto using incl_refl.
  - injection H as <- <-. exists c. pose proof (refTime_sim d t) as S.
    split; [eapply sim_inv; eauto|]. destruct S as (tm & xm & -> & _). cbn. split; auto.
    right. apply Same; auto using incl_refl.
Qed.

(** an ID that is no longer active stays inactive *)
Lemma jobs_step (d : data) c k o d' :
  Inv d c -> allowed d k -> exec d k = Ok (d', o) ->
  (d_ID d <= d_ID d')%nat /\
  (forall id, (id < d_ID d)%nat -> nfind id (d_jobs d) = None -> nfind id (d_jobs d') = None) /\
  d_optMaxLevel d' = d_optMaxLevel d /\ d_optTol d' = d_optTol d /\
  match o with
  | OPop id _ _ _ => id = d_ID d /\ d_ID d' = S (d_ID d)
  | ONone => d_ID d' = d_ID d
  end.
Proof.
  intros I HA H.
  assert (Er : forall id id', nfind id (d_jobs d) = None -> nfind id (nerase id' (d_jobs d)) = None).
  { intros id id' Hn. apply (mfind_none Nat.eqb Nat.ltb Nat.eqb_eq).
    apply (mfind_none Nat.eqb Nat.ltb Nat.eqb_eq) in Hn. intros Hin. apply Hn.
    apply in_map_iff in Hin as (x & <- & Hx). apply in_map. eapply nerase_incl; eauto. }
  destruct k; cbn [exec allowed] in *.
  - destruct (pop d) as [[d1 [[[id1 dt1] start1] prev1]]|] eqn:E; [|discriminate].
    cbn [rbind] in H. injection H as <- <-.
    destruct (pop_inv _ _ _ _ _ _ _ I E)
      as (I' & -> & xl & xh & lv & q & a1 & b1 & _ & _ & EJ & EI & _ & _ & _ & _ & _ & _ & _ & O1 & O2 & _).
    rewrite EI, EJ. repeat split; auto. intros id Hid Hn.
    revert Hn. generalize (d_jobs d). intros l. induction l as [|[k v] l IH]; cbn.
    + destruct (Nat.eqb id (d_ID d)) eqn:En; auto. apply Nat.eqb_eq in En. lia.
    + destruct (Nat.eqb id k); [discriminate|auto].
  - destruct HA as ((e' & He & Hl) & Hr). destruct e' as [[lo0 hi0] lev].
    destruct (submit d id ds ss up lo) as [d1|] eqn:E; [|discriminate].
    cbn [rbind] in H. injection H as <- <-.
    destruct (complete_inv d c id lev lo0 hi0 ds ss up lo d1 I He Hl Hr E)
      as (pre & a0 & b0 & post & Ec & Ea & Eb & _ & I' & _ & EJ & EI & _ & _ & _ & O1 & O2 & _).
    unfold finishJob. cbn. rewrite EJ, EI, O1, O2. repeat split; auto.
  - injection H as <- <-. cbn. repeat split; auto.
  - destruct (appendData d t s prio) as [d1|] eqn:E; [|discriminate].
    cbn [rbind] in H. injection H as <- <-.
    destruct (appendData_inv d c t s prio d1 I E)
      as (p & x & y & I' & _ & _ & _ & _ & _ & _ & EJ & EI & _ & O1 & O2 & _).
    rewrite EJ, EI, O1, O2. repeat split; auto.
  - unfold appendPoint in H. destruct (d_xi d); [discriminate|]. cbn [rbind] in H. injection H as <- <-.
    cbn. repeat split; auto.
  - injection H as <- <-. cbn. repeat split; auto.
  - destruct (init d) as [d1|] eqn:E; [|discriminate]. cbn [rbind] in H. injection H as <- <-.
    unfold init in E. cbn in E. destruct (d_xi d); [discriminate|].
    unfold buildMap in E. destruct (_ =? _)%nat; [|discriminate]. injection E as <-. cbn. repeat split; auto.
  - destruct HA as (e' & He). injection H as <- <-.
    unfold jobLevel, getReferenceByID. rewrite (readJob_known _ _ _ He). cbn [fst].
    rewrite (readJob_known _ _ _ He). cbn [fst].
    destruct (jobTimes_sim _ _ _ He) as (tm & xm & -> & _). cbn. repeat split; auto.
  - destruct HA as (e' & He). injection H as <- <-.
    unfold jobLevel, jobStartTime. rewrite (readJob_known _ _ _ He). cbn [fst].
    rewrite (readJob_known _ _ _ He).
    destruct (readTime_sim d (seg_lo e')) as (tm & xm & -> & _). cbn. repeat split; auto.
  - injection H as <- <-. destruct (flat_spec d c level (inv_rep _ _ I)) as [(tm & xm & -> & _) _].
    cbn. repeat split; auto.
  - injection H as <- <-. destruct (refTime_sim d t) as (tm & xm & -> & _).
    cbn. repeat split; auto.
Qed.

Definition poppedIDs (h : list (@call sol * @out sol)) : list nat :=
  flat_map (fun x => match snd x with OPop id _ _ _ => [id] | ONone => [] end) h.

Lemma history_ids (d0 : data) h d : history d0 h d -> (exists c, Inv d0 c) ->
  poppedIDs h = seq (d_ID d0) (length (poppedIDs h)) /\ d_ID d = (d_ID d0 + length (poppedIDs h))%nat /\
  d_optMaxLevel d = d_optMaxLevel d0 /\ d_optTol d = d_optTol d0.
Proof.
  intros H H0. induction H as [|h d1 k o d2 H IH HA HE]; [cbn; repeat split; auto|].
  destruct IH as (E1 & E2 & E3 & E4). destruct (history_inv _ _ _ H H0) as (c & I).
  destruct (jobs_step _ _ _ _ _ I HA HE) as (_ & _ & O1 & O2 & Ho).
  unfold poppedIDs in *. rewrite flat_map_app. cbn [flat_map snd]. rewrite app_nil_r.
  destruct o as [|id dt st pv]; cbn.
  - rewrite app_nil_r. repeat split; congruence.
  - destruct Ho as [Eid En]. rewrite app_length. cbn.
    split; [|repeat split; try congruence; lia].
    rewrite Nat.add_1_r, seq_S. f_equal; [exact E1|]. rewrite Eid, E2. reflexivity.
Qed.

Lemma history_app (d0 : data) h1 h2 d : history d0 (h1 ++ h2) d ->
  exists d1, history d0 h1 d1 /\ history d1 h2 d.
Proof.
  revert d. induction h2 as [|x h2 IH] using rev_ind; intros d H.
  - rewrite app_nil_r in H. exists d. split; auto. constructor.
  - inversion H as [|h d1 k o d2 H1 H2 H3 E]; [destruct h1, h2; discriminate|].
    subst. rewrite app_assoc in E. apply app_inj_tail in E as [-> <-].
    destruct (IH _ H1) as (d3 & A & B). exists d3. split; auto. econstructor; eauto.
Qed.

Lemma history_job (d0 : data) c0 h d id e dt start prev :
  history d0 h d -> Inv d0 c0 -> (id < d_ID d0)%nat -> described d0 c0 id e dt start prev ->
  exists c, Inv d c /\ (id < d_ID d)%nat /\
    (nfind id (d_jobs d) = None \/ described d c id e dt start prev).
Proof.
  intros H I0 Hid Hd. induction H as [|h d1 k o d2 H IH HA HE]; [exists c0; auto|].
  destruct IH as (c & I & Hid1 & [Hn|Hd1]).
  - destruct (exec_inv _ _ _ _ _ I HA HE) as (c2 & I2).
    destruct (jobs_step _ _ _ _ _ I HA HE) as (L & N & _). exists c2. split; [auto|]. split; [lia|].
    left. auto.
  - eapply described_step; eauto.
Qed.

Lemma popped_job_valid (d0 : data) h1 id dt start prev h2 d :
  (exists c, Inv d0 c) -> history d0 (h1 ++ (CPop, OPop id dt start prev) :: h2) d ->
  forall e, active d id e -> describes d id e dt start prev.
Proof.
  intros H0 H e He. change ((CPop, OPop id dt start prev) :: h2) with ([(CPop, OPop id dt start prev)] ++ h2) in H.
  rewrite app_assoc in H. apply history_app in H as (d2 & H1 & H2).
  inversion H1 as [|h d1 k o dd H1' HA HE E]; [destruct h1; discriminate|]. subst dd.
  apply app_inj_tail in E as [-> E]. injection E as -> ->.
  destruct (history_inv _ _ _ H1' H0) as (c & I).
  cbn [exec] in HE. destruct (pop d1) as [[d3 [[[id1 dt1] start1] prev1]]|] eqn:Ep; [|discriminate].
  cbn [rbind] in HE. injection HE as -> -> -> -> ->.
  destruct (pop_inv _ _ _ _ _ _ _ I Ep)
    as (I2 & Eid & xl & xh & lv & q & a & b & Eq & _ & EJ & EI & Ia & Ib & Ea & Eb & Es & Epv & Edt & _).
  assert (Hd : described d2 c id (xl, xh, lv) dt start prev).
  { split.
    - rewrite EJ. apply (mfind_NoDup _ Nat.eqb_eq); [rewrite <- EJ; apply I2|].
      apply in_or_app; right; left; auto.
    - exists a, b. repeat split; auto. intros Hc. unfold correction in Hc. cbn in Hc.
      replace (lv =? 0)%Z with false in Edt by (symmetry; apply Z.eqb_neq; lia).
      rewrite andb_false_r in Edt. auto. }
  assert (Hlt : (id < d_ID d2)%nat) by lia.
  destruct (history_job _ _ _ _ _ _ _ _ _ H2 I2 Hlt Hd) as (c' & I' & _ & [Hn|Hd']).
  - apply (active_nfind _ _ _ _ I') in He. congruence.
  - apply described_describes with (c := c'); auto.
    assert (e = (xl, xh, lv)) as ->; auto. apply (active_nfind _ _ _ _ I') in He. destruct Hd' as [Hf _]. congruence.
Qed.

(** ** termination measure *)
Section Measure.
Variable b : nat.
(** W n: correction jobs that a segment with n levels left can cause *)
Fixpoint W (n : nat) : nat := match n with O => 0 | S n => 1 + S b * W n end.
Definition left_levels (ml : Z) (l : Z) : nat := Z.to_nat (Z.max 1 ml + 1 - l).
Definition weight (ml : Z) (e : segment) : nat :=
  if isSeg e then W (left_levels ml (seg_lev e)) else 1%nat.
Definition sum (l : list nat) : nat := fold_right Nat.add 0%nat l.
Definition measure (d : data) : nat :=
  (sum (map (weight (d_maxLevel d)) (d_queue d)) +
   sum (map (fun x => weight (d_maxLevel d) (snd x) - 1)%nat (d_jobs d)))%nat.

Lemma sum_app l1 l2 : sum (l1 ++ l2) = (sum l1 + sum l2)%nat.
Proof. unfold sum. induction l1; cbn; lia. Qed.
Lemma sum_le {A} (f : A -> nat) l n : (forall x, In x l -> f x <= n)%nat -> (sum (map f l) <= length l * n)%nat.
Proof.
  unfold sum. induction l as [|x l IH]; cbn; intros H; [lia|].
  pose proof (H x (or_introl eq_refl)). specialize (IH (fun y Hy => H y (or_intror Hy))). lia.
Qed.
Lemma weight_pos ml e : entry_ok ml [] e \/ (seg_lev e <= Z.max 1 ml)%Z -> (1 <= weight ml e)%nat.
Proof.
  intros H. unfold weight. destruct (isSeg e) eqn:E; [|lia]. unfold isSeg in E. apply Z.leb_le in E.
  assert (Hl : (seg_lev e <= Z.max 1 ml)%Z) by (destruct H as [[(A & _)|(A & _)]|A]; lia).
  unfold left_levels. destruct (Z.to_nat (Z.max 1 ml + 1 - seg_lev e)) as [|n] eqn:En; [lia|].
  cbn. lia.
Qed.

Lemma sum_erase (f : nat * segment -> nat) (jobs : list (nat * segment)) id :
  (sum (map f (nerase id jobs)) <= sum (map f jobs))%nat.
Proof.
  unfold sum, merase. induction jobs as [|x l IH]; cbn; auto. destruct (negb _); cbn; lia.
Qed.

Definition cost (ml : Z) (k : @call sol) : nat :=
  match k with
  | CAppendPoint _ => 1%nat
  | CAppendData _ _ _ => W (left_levels ml 1)
  | _ => 0%nat
  end.
Definition small (k : @call sol) : Prop :=
  match k with
  | CComplete _ _ ss _ _ => (length ss <= b)%nat
  | CInit => False
  | _ => True
  end.

Lemma maxLevel_step (d : data) c k o d' : Inv d c -> allowed d k -> exec d k = Ok (d', o) ->
  d_maxLevel d' = d_maxLevel d.
Proof.
  intros I HA H. destruct (exec_inv _ _ _ _ _ I HA H) as (c' & I').
  destruct (jobs_step _ _ _ _ _ I HA H) as (_ & _ & E & _).
  destruct (inv_opt _ _ I) as [A _]. destruct (inv_opt _ _ I') as [B _]. congruence.
Qed.

Lemma measure_step (d : data) c k o d' : Inv d c -> allowed d k -> small k -> exec d k = Ok (d', o) ->
  (measure d' + match o with OPop _ _ _ _ => 1 | ONone => 0 end <= measure d + cost (d_maxLevel d) k)%nat.
Proof.
  intros I HA Hs H. pose proof (maxLevel_step _ _ _ _ _ I HA H) as EM.
  destruct k; cbn [exec allowed small cost] in *.
  - destruct (pop d) as [[d1 [[[id1 dt1] start1] prev1]]|] eqn:E; [|discriminate].
    cbn [rbind] in H. injection H as <- <-.
    destruct (pop_inv _ _ _ _ _ _ _ I E)
      as (I' & -> & xl & xh & lv & q & a1 & b1 & Eq & Eq' & EJ & EI & _).
    unfold measure. rewrite EM, Eq, Eq', EJ, map_app, sum_app. cbn [map sum fold_right snd].
    assert (1 <= weight (d_maxLevel d) (xl, xh, lv))%nat; [|unfold sum in *; lia].
    apply weight_pos. right. pose proof (inv_entries _ _ I) as He. unfold entries in He. rewrite Eq in He.
    inversion He as [|? ? [(A & _)|(A & _)]]; subst; lia.
  - destruct HA as ((e' & He & Hl) & Hr). destruct e' as [[lo0 hi0] lev]. cbn in Hl.
    destruct (submit d id ds ss up lo) as [d1|] eqn:E; [|discriminate].
    cbn [rbind] in H. injection H as <- <-.
    destruct (complete_inv d c id lev lo0 hi0 ds ss up lo d1 I He Hl Hr E)
      as (pre & a0 & b0 & post & Ec & Ea & Eb & _ & I' & EQ & EJ & EI & EM' & _).
    unfold measure, finishJob. cbn [d_queue d_jobs d_maxLevel with_jobs] in *. rewrite EM', EQ, EJ, map_app, sum_app.
    destruct (nfind_split _ _ _ (inv_jobs _ _ I) He) as (j1 & j2 & E1 & E2). rewrite E2, E1.
    rewrite !map_app, !sum_app. cbn [map sum fold_right snd]. fold sum.
    set (ml := d_maxLevel d) in *.
    assert (Hnew : (sum (map (weight ml) (newSegments ml (d_tol d) (px a0 :: midX a0 b0 ds ++ [px b0]) lev
        (pt b0 - pt a0 - lo) (Rsum ds - up - (pt b0 - pt a0 - lo)) (pt b0 - pt a0))) <=
        weight ml (lo0, hi0, lev) - 1)%nat).
    { rewrite newSegments_eq by (cbn; rewrite app_length; cbn; lia).
      destruct (lev <? ml)%Z eqn:El; [|cbn; lia]. apply Z.ltb_lt in El.
      assert (Hw : weight ml (lo0, hi0, lev) = W (S (left_levels ml (lev + 1)))).
      { unfold weight, isSeg. cbn [seg_lev snd]. replace (1 <=? lev)%Z with true by (symmetry; apply Z.leb_le; lia).
        f_equal. unfold left_levels. lia. }
      assert (G : forall l : list (R * R), (length l <= S b)%nat ->
          (sum (map (weight ml) (map (fun e => (fst e, snd e, (lev + 1)%Z)) l)) <= S b * W (left_levels ml (lev + 1)))%nat).
      { intros l Hlen. rewrite map_map. etransitivity; [apply (sum_le _ l (W (left_levels ml (lev + 1))))|].
        - intros x _. unfold weight, isSeg. cbn [seg_lev snd].
          replace (1 <=? lev + 1)%Z with true by (symmetry; apply Z.leb_le; lia). lia.
        - apply Nat.mul_le_mono_r. lia. }
      assert (Hlen : (length (consecutive (px a0 :: midX a0 b0 ds ++ [px b0])) <= S b)%nat).
      { rewrite consecutive_length. cbn [length]. rewrite app_length, (midX_length a0 b0 ds ss) by apply Hr. cbn. lia. }
      rewrite Hw. cbn [W]. replace (1 + S b * W (left_levels ml (lev + 1)) - 1)%nat with (S b * W (left_levels ml (lev + 1)))%nat by lia.
      apply G. destruct (Rltb _ _), (Rltb _ _); cbn [length]; try lia.
      assert (Hr' : forall A (l : list A), (length (removelast l) <= length l)%nat).
      { clear. intros A l. induction l as [|x l IH]; cbn; auto. destruct l; cbn in *; lia. }
      etransitivity; [apply Hr'|exact Hlen]. }
    unfold sum in *. lia.
  - injection H as <- <-. unfold measure, finishJob. cbn [d_queue d_jobs d_maxLevel with_jobs].
    pose proof (sum_erase (fun x => weight (d_maxLevel d) (snd x) - 1)%nat (d_jobs d) id). lia.
  - destruct (appendData d t s prio) as [d1|] eqn:E; [|discriminate].
    cbn [rbind] in H. injection H as <- <-.
    destruct (appendData_inv d c t s prio d1 I E)
      as (p & x & y & I' & _ & _ & _ & _ & _ & _ & EJ & EI & _ & O1 & O2 & _ & _ & _ & EQ).
    unfold measure. rewrite EM, EQ, EJ.
    assert (Hw : weight (d_maxLevel d) (x, px p, 1%Z) = W (left_levels (d_maxLevel d) 1)) by reflexivity.
    unfold push. destruct prio; cbn [map]; rewrite ?map_app, ?sum_app;
    cbn [map sum fold_right]; rewrite Hw; unfold sum; lia.
  - unfold appendPoint in H. destruct (d_xi d); [discriminate|]. cbn [rbind] in H. injection H as <- <-.
    unfold measure. cbn [d_queue d_jobs d_maxLevel with_init with_queue].
    match goal with |- context [push prio ?e _] =>
      assert (Hw : weight (d_maxLevel d) e = 1%nat) by reflexivity end.
    unfold push. destruct prio; cbn [map]; rewrite ?map_app, ?sum_app;
    cbn [map sum fold_right]; rewrite Hw; unfold sum; lia.
  - injection H as <- <-. change (measure d + 0 <= measure d + 0)%nat. lia.
  - destruct Hs.
  - destruct HA as (e' & He). injection H as <- <-.
    unfold jobLevel, getReferenceByID. rewrite (readJob_known _ _ _ He). cbn [fst].
    rewrite (readJob_known _ _ _ He). cbn [fst].
    destruct (jobTimes_sim _ _ _ He) as (tm & xm & -> & _). change (measure d + 0 <= measure d + 0)%nat. lia.
  - destruct HA as (e' & He). injection H as <- <-.
    unfold jobLevel, jobStartTime. rewrite (readJob_known _ _ _ He). cbn [fst].
    rewrite (readJob_known _ _ _ He).
    destruct (readTime_sim d (seg_lo e')) as (tm & xm & -> & _). change (measure d + 0 <= measure d + 0)%nat. lia.
  - injection H as <- <-. destruct (flat_spec d c level (inv_rep _ _ I)) as [(tm & xm & -> & _) _].
    change (measure d + 0 <= measure d + 0)%nat. lia.
  - injection H as <- <-. destruct (refTime_sim d t) as (tm & xm & -> & _). change (measure d + 0 <= measure d + 0)%nat. lia.
Qed.

Lemma history_measure (d0 : data) h d : history d0 h d -> (exists c, Inv d0 c) ->
  Forall (fun x => small (fst x)) h ->
  (measure d + length (poppedIDs h) <= measure d0 + sum (map (fun x => cost (d_maxLevel d0) (fst x)) h))%nat
  /\ d_maxLevel d = d_maxLevel d0.
Proof.
  intros H H0 Hs. induction H as [|h d1 k o d2 H IH HA HE]; [cbn; split; lia|].
  apply Forall_app in Hs as [Hs1 Hs2]. inversion Hs2 as [|? ? Hs3 _]; subst. cbn in Hs3.
  destruct (IH Hs1) as (E1 & E2). destruct (history_inv _ _ _ H H0) as (c & I).
  pose proof (measure_step _ _ _ _ _ I HA Hs3 HE) as M. pose proof (maxLevel_step _ _ _ _ _ I HA HE) as EM.
  unfold poppedIDs in *. rewrite flat_map_app, app_length, map_app, sum_app.
  cbn [flat_map snd map fst sum fold_right]. rewrite app_nil_r. rewrite E2 in M.
  split; [|congruence]. destruct o; cbn [length]; lia.
Qed.
End Measure.
End Hist.
