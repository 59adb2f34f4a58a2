(** Refinement of gsAPALMData (APALMData.v) to a plain list of curve points, and
    the invariant that holds in every history. *)
From Verif Require Import Prelude APALMData.
Local Open Scope R_scope.

Section Proofs.
Context {sol : Type}.
Notation data := (data sol).

(** ** Abstract curve: an ordered list of points *)
Record point := mkPoint { px : R; pt : R; ps : sol; pp : sol; pl : Z }.
Definition shift (c : R) (p : point) : point := mkPoint (px p) (pt p + c) (ps p) (pp p) (pl p).

(** value read through operator[] of m_tmap *)
Definition tval (m : list (R * R)) (x : R) : R := fst (rread 0 x m).

Definition Rep (d : data) (c : list point) : Prop :=
  d_xi d = map px c /\ d_t d = map pt c /\
  d_sols d = map (fun p => (px p, ps p)) c /\
  d_prevs d = map (fun p => (px p, pp p)) c /\
  d_levels d = map (fun p => (px p, pl p)) c /\
  incr (map px c) /\ incr (map pt c) /\
  (forall p, In p c -> tval (d_tmap d) (px p) = pt p).

(** ** maps *)
Lemma tval_read m k x : tval (snd (rread 0 k m)) x = tval m x.
Proof.
  unfold tval, mread. destruct (rfind k m) eqn:E; cbn; auto.
  destruct (Req_EM_T k x) as [->|Hn].
  - rewrite (mfind_mset_same Reqb Rltb Reqb_true), E. reflexivity.
  - rewrite (mfind_mset_other Reqb Rltb Reqb_true) by auto. destruct (rfind x m); auto.
Qed.

Lemma fold_rinsert_incr {V} (es m : list (R * V)) :
  incr (map fst (m ++ es)) ->
  fold_left (fun m e => rinsert (fst e) (snd e) m) es m = m ++ es.
Proof.
  revert m. induction es as [|[k v] es IH]; intros m H; cbn [fold_left fst snd].
  - rewrite app_nil_r. auto.
  - rewrite map_app in H. cbn in H. pose proof H as H0.
    apply incr_app in H as (H1 & H2 & H3).
    rewrite rinsert_new.
    2:{ intros Hin. specialize (H3 k k Hin (or_introl eq_refl)). lra. }
    rewrite <- (app_nil_r m) at 1. rewrite rset_middle.
    + rewrite IH; rewrite <- app_assoc; cbn; auto. rewrite map_app. auto.
    + intros x Hx. apply H3; auto. left; auto.
    + intros x [].
Qed.

Lemma fold_rinsert_incr2 {A V} (f : A -> R) (g : A -> V) (es : list A) :
  incr (map f es) ->
  fold_left (fun m e => rinsert (f e) (g e) m) es [] = map (fun e => (f e, g e)) es.
Proof.
  intros H.
  transitivity (fold_left (fun m e => rinsert (fst e) (snd e) m) (map (fun e => (f e, g e)) es) []).
  - generalize (@nil (R * V)). induction es as [|e es IH]; intros m; cbn; auto.
    apply IH. cbn in H. apply incr_cons in H. tauto.
  - rewrite fold_rinsert_incr; auto. cbn. rewrite map_map. cbn. auto.
Qed.

Lemma rfind_map_in {V} (c : list point) (g : point -> V) p :
  incr (map px c) -> In p c -> rfind (px p) (map (fun p => (px p, g p)) c) = Some (g p).
Proof.
  intros H Hin. apply (mfind_NoDup _ Reqb_true).
  - rewrite map_map. cbn. apply incr_NoDup. auto.
  - apply in_map_iff. exists p. auto.
Qed.

Lemma rfind_map_none {V} (c : list point) (g : point -> V) x :
  ~ In x (map px c) -> rfind x (map (fun p => (px p, g p)) c) = None.
Proof.
  intros H. apply (mfind_none _ Rltb Reqb_true). rewrite map_map. cbn. auto.
Qed.

Lemma fold_kinsert mids A B :
  incr (A ++ mids ++ B) ->
  fold_left (fun l x => kinsert x l) mids (A ++ B) = A ++ mids ++ B.
Proof.
  revert A. induction mids as [|m mids IH]; intros A H; cbn [fold_left app]; auto.
  cbn in H. pose proof H as H0. apply incr_app in H as (H1 & H2 & H3).
  apply incr_cons in H2 as [H2 H4].
  rewrite kinsert_middle.
  - replace (A ++ m :: B) with ((A ++ [m]) ++ B) by (rewrite <- app_assoc; auto).
    rewrite IH; rewrite <- app_assoc; auto.
  - intros y Hy. apply H3; auto. left; auto.
  - intros y Hy. apply H4. apply in_or_app; auto.
Qed.

Lemma fold_rset {V} (mids A B : list (R * V)) :
  incr (map fst (A ++ mids ++ B)) ->
  fold_left (fun m e => rset (fst e) (snd e) m) mids (A ++ B) = A ++ mids ++ B.
Proof.
  revert A. induction mids as [|[k v] mids IH]; intros A H; cbn [fold_left app]; auto.
  rewrite map_app in H. cbn in H. pose proof H as H0. apply incr_app in H as (H1 & H2 & H3).
  apply incr_cons in H2 as [H2 H4]. cbn [fst snd].
  rewrite rset_middle.
  - replace (A ++ (k, v) :: B) with ((A ++ [(k, v)]) ++ B) by (rewrite <- app_assoc; auto).
    rewrite IH; rewrite <- app_assoc; auto. cbn. rewrite map_app. cbn. auto.
  - intros y Hy. apply H3; auto. left; auto.
  - intros y Hy. apply H4. rewrite map_app. apply in_or_app; auto.
Qed.

Lemma fold_rset_const {V} (v : V) (mids : list R) (A B : list (R * V)) :
  incr (map fst A ++ mids ++ map fst B) ->
  fold_left (fun m x => rset x v m) mids (A ++ B) = A ++ map (fun x => (x, v)) mids ++ B.
Proof.
  intros H. rewrite <- fold_rset.
  - clear H. generalize (A ++ B). induction mids as [|k mids IH]; intros m; cbn; auto.
  - rewrite !map_app, map_map. cbn. rewrite map_id. auto.
Qed.

(** ** buildMap *)
Lemma combine_map {A B C} (f : A -> B) (g : A -> C) (l : list A) :
  combine (map f l) (map g l) = map (fun x => (f x, g x)) l.
Proof. induction l; cbn; f_equal; auto. Qed.

Lemma buildMap_ok (d : data) (c : list point) :
  d_xi d = map px c -> d_t d = map pt c -> incr (map px c) -> incr (map pt c) ->
  buildMap d = Ok (with_maps d (map (fun p => (px p, pt p)) c) (map (fun p => (pt p, px p)) c)).
Proof.
  intros Hx Ht Ix It. unfold buildMap. rewrite Hx, Ht, !map_length, Nat.eqb_refl.
  rewrite combine_map.
  assert (E1 : fold_left (fun m e => rinsert (fst e) (snd e) m)
              (map (fun p => (px p, pt p)) c) [] = map (fun p => (px p, pt p)) c).
  { rewrite fold_rinsert_incr; auto. cbn. rewrite map_map. auto. }
  assert (E2 : fold_left (fun m e => rinsert (snd e) (fst e) m)
              (map (fun p => (px p, pt p)) c) [] = map (fun p => (pt p, px p)) c).
  { rewrite (fold_rinsert_incr2 snd fst); rewrite ?map_map; auto. }
  rewrite E1, E2. reflexivity.
Qed.

Lemma tval_built (c : list point) p :
  incr (map px c) -> In p c -> tval (map (fun p => (px p, pt p)) c) (px p) = pt p.
Proof.
  intros H Hin. unfold tval, mread. rewrite (rfind_map_in c pt p H Hin). reflexivity.
Qed.

(** ** queries keep the representation *)
Lemma Rep_readTime (d : data) c x : Rep d c -> Rep (fst (readTime d x)) c.
Proof.
  unfold Rep, readTime. intros (H1&H2&H3&H4&H5&H6&H7&H8).
  destruct (rread 0 x (d_tmap d)) as [t tm] eqn:E. cbn. repeat split; auto.
  intros p Hp. replace tm with (snd (rread 0 x (d_tmap d))) by (rewrite E; auto).
  rewrite tval_read. auto.
Qed.

Lemma readTime_val (d : data) c p : Rep d c -> In p c -> snd (readTime d (px p)) = pt p.
Proof.
  unfold Rep, readTime. intros (H1&H2&H3&H4&H5&H6&H7&H8) Hp.
  specialize (H8 p Hp). unfold tval in H8.
  destruct (rread 0 (px p) (d_tmap d)) as [t tm] eqn:E. cbn in *. auto.
Qed.

(** all fields except m_tmap are untouched by readTime *)
Lemma readTime_fields (d : data) x :
  let d' := fst (readTime d x) in
  d_optMaxLevel d' = d_optMaxLevel d /\ d_optTol d' = d_optTol d /\
  d_maxLevel d' = d_maxLevel d /\ d_tol d' = d_tol d /\ d_dt d' = d_dt d /\ d_init d' = d_init d /\
  d_xi d' = d_xi d /\ d_t d' = d_t d /\ d_sols d' = d_sols d /\ d_prevs d' = d_prevs d /\
  d_levels d' = d_levels d /\ d_ximap d' = d_ximap d /\ d_queue d' = d_queue d /\
  d_jobs d' = d_jobs d /\ d_ID d' = d_ID d.
Proof.
  unfold readTime. destruct (rread 0 x (d_tmap d)). cbn. repeat split; reflexivity.
Qed.

Lemma with_jobs_same (d : data) : with_jobs d (d_jobs d) (d_ID d) = d.
Proof. destruct d; reflexivity. Qed.

Lemma readJob_known (d : data) id e : nfind id (d_jobs d) = Some e -> readJob d id = (d, e).
Proof.
  intros H. unfold readJob. rewrite (mread_known _ _ _ _ _ _ H). rewrite with_jobs_same. reflexivity.
Qed.

(** ** time points *)
Lemma timePoints_length t ds : length (timePoints t ds) = S (length ds).
Proof. revert t; induction ds; intros; cbn; auto. Qed.
Lemma timePoints_hd t ds : exists l, timePoints t ds = t :: l.
Proof. destruct ds; cbn; eauto. Qed.
Lemma timePoints_last t ds : last (timePoints t ds) 0 = t + Rsum ds.
Proof.
  revert t; induction ds as [|d ds IH]; intros t; cbn [timePoints].
  - cbn. rewrite Rsum_nil. lra.
  - specialize (IH (t + d)). destruct (timePoints_hd (t + d) ds) as [l E]. rewrite E in *.
    change (last (t :: t + d :: l) 0) with (last (t + d :: l) 0). rewrite IH, Rsum_cons. lra.
Qed.
Lemma timePoints_ge t ds x :
  Forall (fun d => 0 < d) ds -> In x (timePoints t ds) -> t <= x.
Proof.
  intros H. revert t. induction H as [|d ds Hd Hds IH]; intros t; cbn.
  - intros [->|[]]; lra.
  - intros [->|Hin]; [lra|]. specialize (IH _ Hin). lra.
Qed.
Lemma timePoints_incr t ds : Forall (fun d => 0 < d) ds -> incr (timePoints t ds).
Proof.
  intros H. revert t. induction H as [|d ds Hd Hds IH]; intros t; cbn.
  - apply incr_one.
  - apply incr_cons. split; auto. intros y Hy.
    pose proof (timePoints_ge _ _ _ Hds Hy). lra.
Qed.

Lemma interior_split {A} (l : list A) (x : A) dflt :
  (2 <= length l)%nat -> l = hd dflt l :: interior l ++ [last l dflt].
Proof.
  intros H. destruct l as [|a [|b l]]; cbn in H; try lia.
  unfold interior. cbn [hd tl].
  rewrite (app_removelast_last dflt (l:=b::l)) at 1 by discriminate.
  reflexivity.
Qed.
Lemma interior_length {A} (l : list A) : (2 <= length l)%nat -> length (interior l) = (length l - 2)%nat.
Proof.
  intros H. destruct l as [|a [|b l]]; cbn in H; try lia.
  pose proof (interior_split (a :: b :: l) a a H) as E. apply (f_equal (@length A)) in E.
  cbn [length] in *. rewrite app_length in E. cbn in E. cbn. lia.
Qed.

Lemma timePoints_split t ds : ds <> [] ->
  timePoints t ds = t :: interior (timePoints t ds) ++ [t + Rsum ds].
Proof.
  intros H. rewrite <- timePoints_last.
  destruct (timePoints_hd t ds) as [l E].
  transitivity (hd 0 (timePoints t ds) :: interior (timePoints t ds) ++ [last (timePoints t ds) 0]).
  - apply interior_split. exact 0. rewrite timePoints_length. destruct ds; cbn; [congruence|lia].
  - rewrite E. reflexivity.
Qed.

(** points strictly inside the segment *)
Lemma interior_bounds t ds x :
  Forall (fun d => 0 < d) ds -> In x (interior (timePoints t ds)) -> t < x < t + Rsum ds.
Proof.
  intros H Hin. destruct ds as [|d0 ds0] eqn:Eds.
  - cbn in Hin. contradiction.
  - rewrite <- Eds in *. assert (Hne : ds <> []) by (rewrite Eds; discriminate).
    pose proof (timePoints_incr t ds H) as I. rewrite (timePoints_split t ds Hne) in I.
    apply incr_cons in I as [I1 I2]. apply incr_app in I1 as (I3 & _ & I4). split.
    + apply I2, in_or_app; auto.
    + apply I4; auto. left; auto.
Qed.
Lemma interior_incr t ds : Forall (fun d => 0 < d) ds -> incr (interior (timePoints t ds)).
Proof.
  intros H. destruct ds as [|d0 ds0] eqn:Eds; [apply incr_nil|].
  rewrite <- Eds in *. assert (Hne : ds <> []) by (rewrite Eds; discriminate).
  pose proof (timePoints_incr t ds H) as I. rewrite (timePoints_split t ds Hne) in I.
  apply incr_cons in I as [I1 _]. apply incr_app in I1. tauto.
Qed.

Definition parOf (xilow dxi tlow dt tk : R) : R := xilow + dxi * (tk - tlow) / dt.
Lemma parOf_mono xilow dxi tlow dt a b :
  0 < dxi -> 0 < dt -> a < b -> parOf xilow dxi tlow dt a < parOf xilow dxi tlow dt b.
Proof.
  intros. unfold parOf. apply Rplus_lt_compat_l. unfold Rdiv.
  apply Rmult_lt_compat_r; [apply Rinv_0_lt_compat; auto|].
  apply Rmult_lt_compat_l; auto. lra.
Qed.
Lemma parOf_lo xilow dxi tlow dt : parOf xilow dxi tlow dt tlow = xilow.
Proof. unfold parOf, Rdiv. ring. Qed.
Lemma parOf_hi xilow dxi tlow dt : dt <> 0 -> parOf xilow dxi tlow dt (tlow + dt) = xilow + dxi.
Proof. intros. unfold parOf. field. auto. Qed.
Lemma incr_map_mono (f : R -> R) l :
  (forall a b, In a l -> In b l -> a < b -> f a < f b) -> incr l -> incr (map f l).
Proof.
  intros Hf H. induction l as [|a l IH]; cbn; [apply incr_nil|].
  apply incr_cons in H as [H1 H2]. apply incr_cons. split.
  - apply IH; auto. intros; apply Hf; auto; right; auto.
  - intros y Hy. apply in_map_iff in Hy as (z & <- & Hz). apply Hf; auto; [left|right]; auto.
Qed.

(** ** the new points of a submitted job *)
Fixpoint newPoints (level : Z) (prev : sol) (xs ts : list R) (ss : list sol) : list point :=
  match xs, ts, ss with
  | x :: xs', t :: ts', s :: ss' => mkPoint x t s prev level :: newPoints level s xs' ts' ss'
  | _, _, _ => []
  end.

Lemma newPoints_px level p xs ts ss :
  length xs = length ts -> length xs = length ss -> map px (newPoints level p xs ts ss) = xs.
Proof.
  revert p ts ss; induction xs as [|x xs IH]; intros p [|t ts] [|s ss]; cbn; intros; try discriminate; auto.
  f_equal. apply IH; lia.
Qed.
Lemma newPoints_pt level p xs ts ss :
  length xs = length ts -> length xs = length ss -> map pt (newPoints level p xs ts ss) = ts.
Proof.
  revert p ts ss; induction xs as [|x xs IH]; intros p [|t ts] [|s ss]; cbn; intros; try discriminate; auto.
  f_equal. apply IH; lia.
Qed.
Lemma newPoints_sols level p xs ts ss :
  length xs = length ts -> length xs = length ss ->
  map (fun q => (px q, ps q)) (newPoints level p xs ts ss) = combine xs ss.
Proof.
  revert p ts ss; induction xs as [|x xs IH]; intros p [|t ts] [|s ss]; cbn; intros; try discriminate; auto.
  f_equal. apply IH; lia.
Qed.
Lemma newPoints_ps level p xs ts ss :
  length xs = length ts -> length xs = length ss -> map ps (newPoints level p xs ts ss) = ss.
Proof.
  revert p ts ss; induction xs as [|x xs IH]; intros p [|t ts] [|s ss]; cbn; intros; try discriminate; auto.
  f_equal. apply IH; lia.
Qed.
Lemma newPoints_pl level p xs ts ss :
  length xs = length ts -> length xs = length ss ->
  map pl (newPoints level p xs ts ss) = repeat level (length ss).
Proof.
  revert p ts ss; induction xs as [|x xs IH]; intros p [|t ts] [|s ss]; cbn; intros; try discriminate; auto.
  f_equal. apply IH; lia.
Qed.
Lemma newPoints_levels level p xs ts ss :
  length xs = length ts -> length xs = length ss ->
  map (fun q => (px q, pl q)) (newPoints level p xs ts ss) = map (fun x => (x, level)) xs.
Proof.
  revert p ts ss; induction xs as [|x xs IH]; intros p [|t ts] [|s ss]; cbn; intros; try discriminate; auto.
  f_equal. apply IH; lia.
Qed.

(** ** setPrevs *)
Lemma setPrevs_ok level a xs : forall ts ss prev sols (A B : list (R * sol)),
  length xs = length ts -> length xs = length ss ->
  rfind a sols = Some prev ->
  (forall x s, In (x, s) (combine xs ss) -> rfind x sols = Some s) ->
  incr (map fst A ++ xs ++ map fst B) ->
  setPrevs a xs sols (A ++ B) =
    Ok (A ++ map (fun q => (px q, pp q)) (newPoints level prev xs ts ss) ++ B).
Proof.
  revert a. induction xs as [|x xs IH]; intros a ts ss prev sols A B Hl1 Hl2 Ha Hs Hi.
  - destruct ts, ss; try discriminate. cbn. reflexivity.
  - destruct ts as [|t ts]; [discriminate|]. destruct ss as [|s ss]; [discriminate|].
    cbn [setPrevs]. unfold deref. rewrite Ha. cbn [rbind newPoints map px pp].
    pose proof Hi as Hi0. apply incr_app in Hi as (I1 & I2 & I3). cbn in I2.
    apply incr_cons in I2 as [I2 I4].
    rewrite rset_middle.
    + replace (A ++ (x, prev) :: B) with ((A ++ [(x, prev)]) ++ B) by (rewrite <- app_assoc; auto).
      rewrite (IH x ts ss s); auto.
      * rewrite <- app_assoc. reflexivity.
      * apply Hs. left. reflexivity.
      * intros y r Hin. apply Hs. right. auto.
      * rewrite map_app, <- app_assoc. exact Hi0.
    + intros y Hy. apply I3; auto. left; auto.
    + intros y Hy. apply I4, in_or_app; auto.
Qed.

(** ** submit refines the splice of the new points into the curve *)
Definition spliced (pre : list point) (a b : point) (post : list point)
           (level : Z) (ds : list R) (ss : list sol) : list point :=
  let ts := interior (timePoints (pt a) ds) in
  let xs := map (parOf (px a) (px b - px a) (pt a) (Rsum ds)) ts in
  pre ++ a :: newPoints level (ps a) xs ts ss
      ++ map (shift (Rsum ds - (pt b - pt a))) (b :: post).

Lemma kaddConstant_split A b B c :
  incr (A ++ b :: B) ->
  kaddConstant b c (A ++ b :: B) = A ++ map (fun x => x + c) (b :: B).
Proof.
  intros H. unfold kaddConstant. rewrite map_app. apply incr_app in H as (H1 & H2 & H3).
  apply incr_cons in H2 as [H2 H4]. f_equal.
  - rewrite <- (map_id A) at 2. apply map_ext_in. intros x Hx.
    assert (Rleb b x = false) as ->; auto. apply Rleb_false. apply H3; auto. left; auto.
  - apply map_ext_in. intros x [<-|Hx].
    + assert (Rleb b b = true) as -> by (apply Rleb_true; lra). auto.
    + assert (Rleb b x = true) as ->; auto. apply Rleb_true. specialize (H4 _ Hx). lra.
Qed.

Lemma map_shift_px c l : map px (map (shift c) l) = map px l.
Proof. rewrite map_map. reflexivity. Qed.
Lemma map_shift_pt c l : map pt (map (shift c) l) = map (fun x => x + c) (map pt l).
Proof. rewrite !map_map. reflexivity. Qed.

(** what the caller of submit has to provide *)
Definition result_ok (ds : list R) (ss : list sol) : Prop :=
  length ds = S (length ss) /\ Forall (fun d => 0 < d) ds.

Definition midT (a : point) (ds : list R) : list R := interior (timePoints (pt a) ds).
Definition midX (a b : point) (ds : list R) : list R :=
  map (parOf (px a) (px b - px a) (pt a) (Rsum ds)) (midT a ds).

Lemma midT_length a ds (ss : list sol) : length ds = S (length ss) -> length (midT a ds) = length ss.
Proof. intros. unfold midT. rewrite interior_length; rewrite timePoints_length; lia. Qed.
Lemma midX_length a b ds (ss : list sol) : length ds = S (length ss) -> length (midX a b ds) = length ss.
Proof. intros. unfold midX. rewrite map_length. apply midT_length; auto. Qed.

Lemma spliced_map {A} (g : point -> A) pre a b post level ds ss :
  map g (spliced pre a b post level ds ss) =
  map g (pre ++ [a]) ++ map g (newPoints level (ps a) (midX a b ds) (midT a ds) ss) ++
  map (fun p => g (shift (Rsum ds - (pt b - pt a)) p)) (b :: post).
Proof.
  unfold spliced. fold (midT a ds). fold (midX a b ds).
  rewrite !map_app, map_cons, map_app, map_map, <- app_assoc. reflexivity.
Qed.

Lemma spliced_px pre a b post level ds ss : length ds = S (length ss) ->
  map px (spliced pre a b post level ds ss) = map px (pre ++ [a]) ++ midX a b ds ++ map px (b :: post).
Proof.
  intros H. rewrite spliced_map, newPoints_px; [reflexivity|..];
  rewrite ?(midX_length a b ds ss H), ?(midT_length a ds ss H); reflexivity.
Qed.
Lemma spliced_pt pre a b post level ds ss : length ds = S (length ss) ->
  map pt (spliced pre a b post level ds ss) =
  map pt (pre ++ [a]) ++ midT a ds ++ map (fun x => x + (Rsum ds - (pt b - pt a))) (map pt (b :: post)).
Proof.
  intros H. rewrite spliced_map, newPoints_pt; [rewrite map_map; reflexivity|..];
  rewrite ?(midX_length a b ds ss H), ?(midT_length a ds ss H); reflexivity.
Qed.

Lemma spliced_incr pre a b post level ds ss :
  incr (map px (pre ++ a :: b :: post)) -> incr (map pt (pre ++ a :: b :: post)) ->
  result_ok ds ss ->
  incr (map px (spliced pre a b post level ds ss)) /\
  incr (map pt (spliced pre a b post level ds ss)).
Proof.
  intros Ix It [Hl Hp].
  rewrite spliced_px, spliced_pt by auto.
  assert (Hds : ds <> []) by (intros ->; discriminate).
  pose proof (Rsum_pos_lt ds Hp Hds) as Hdt.
  replace (pre ++ a :: b :: post) with ((pre ++ [a]) ++ b :: post) in Ix, It by (rewrite <- app_assoc; auto).
  rewrite map_app in Ix, It.
  apply incr_app in Ix as (X1 & X2 & X3).
  apply incr_app in It as (T1 & T2 & T3).
  assert (Xab : px a < px b) by (apply X3; [rewrite map_app; apply in_or_app|]; cbn; auto).
  assert (Tab : pt a < pt b) by (apply T3; [rewrite map_app; apply in_or_app|]; cbn; auto).
  assert (Xa : forall x, In x (map px (pre ++ [a])) -> x <= px a).
  { intros x Hx. rewrite map_app in Hx, X1. apply in_app_or in Hx as [Hx|[<-|[]]]; [|lra].
    apply incr_app in X1 as (_&_&X1). specialize (X1 x (px a) Hx (or_introl eq_refl)). lra. }
  assert (Ta : forall x, In x (map pt (pre ++ [a])) -> x <= pt a).
  { intros x Hx. rewrite map_app in Hx, T1. apply in_app_or in Hx as [Hx|[<-|[]]]; [|lra].
    apply incr_app in T1 as (_&_&T1). specialize (T1 x (pt a) Hx (or_introl eq_refl)). lra. }
  assert (Xb : forall x, In x (map px (b :: post)) -> px b <= x).
  { intros x Hx. cbn [map] in Hx, X2. apply incr_cons in X2 as [_ X2].
    destruct Hx as [<-|Hx]; [lra|]. specialize (X2 x Hx). lra. }
  assert (Tb : forall x, In x (map pt (b :: post)) -> pt b <= x).
  { intros x Hx. cbn [map] in Hx, T2. apply incr_cons in T2 as [_ T2].
    destruct Hx as [<-|Hx]; [lra|]. specialize (T2 x Hx). lra. }
  assert (Hb : forall x, In x (midT a ds) -> pt a < x < pt a + Rsum ds).
  { intros x Hx. apply interior_bounds; auto. }
  assert (Hf : forall x, In x (midX a b ds) -> px a < x < px b).
  { intros x Hx. unfold midX in Hx. apply in_map_iff in Hx as (u & <- & Hu).
    specialize (Hb u Hu). split.
    - rewrite <- (parOf_lo (px a) (px b - px a) (pt a) (Rsum ds)) at 1. apply parOf_mono; lra.
    - replace (px b) with (parOf (px a) (px b - px a) (pt a) (Rsum ds) (pt a + Rsum ds)) at 2.
      + apply parOf_mono; lra.
      + rewrite parOf_hi; lra. }
  split; apply incr_app; (split; [auto|split; [apply incr_app; split; [|split]|]]).
  - apply incr_map_mono; [|apply interior_incr; auto]. intros u v _ _ Huv. apply parOf_mono; lra.
  - auto.
  - intros x y Hx Hy. specialize (Hf x Hx). specialize (Xb y Hy). lra.
  - intros x y Hx Hy. specialize (Xa x Hx). apply in_app_or in Hy as [Hy|Hy].
    + specialize (Hf y Hy). lra.
    + specialize (Xb y Hy). lra.
  - apply interior_incr; auto.
  - apply incr_map_shift; auto.
  - intros x y Hx Hy. specialize (Hb x Hx). apply in_map_iff in Hy as (z & <- & Hz).
    specialize (Tb z Hz). lra.
  - intros x y Hx Hy. specialize (Ta x Hx). apply in_app_or in Hy as [Hy|Hy].
    + specialize (Hb y Hy). lra.
    + apply in_map_iff in Hy as (z & <- & Hz). specialize (Tb z Hz). lra.
Qed.

(** the check of l.337 *)
Definition length_check (Dt : R) (ds : list R) : Prop := (Dt - Rsum (removelast ds)) / Dt < 1 / 10^12.

Lemma combine_fst {A B} (xs : list A) (ss : list B) :
  length xs = length ss -> map fst (combine xs ss) = xs.
Proof.
  revert ss. induction xs as [|x l IH]; intros [|s ss] H; cbn in *; try lia; auto.
  f_equal. apply IH. lia.
Qed.

Lemma submit_ok (d : data) pre a b post id level ds ss up lo :
  Rep d (pre ++ a :: b :: post) -> d_init d = true ->
  nfind id (d_jobs d) = Some (px a, px b, level) ->
  result_ok ds ss -> length_check (pt b - pt a) ds ->
  exists d',
    submit d id ds ss up lo = Ok d' /\
    Rep d' (spliced pre a b post level ds ss) /\
    d_queue d' = d_queue d ++
      newSegments (d_maxLevel d) (d_tol d) (px a :: midX a b ds ++ [px b])
        level (pt b - pt a - lo) (Rsum ds - up - (pt b - pt a - lo)) (pt b - pt a) /\
    d_jobs d' = d_jobs d /\ d_ID d' = d_ID d /\ d_maxLevel d' = d_maxLevel d /\
    d_tol d' = d_tol d /\ d_dt d' = d_dt d /\ d_init d' = true /\
    d_optMaxLevel d' = d_optMaxLevel d /\ d_optTol d' = d_optTol d /\
    d_tmap d' = map (fun p => (px p, pt p)) (spliced pre a b post level ds ss) /\
    d_ximap d' = map (fun p => (pt p, px p)) (spliced pre a b post level ds ss).
Proof.
  intros HR Hinit Hjob Hres Hck. pose proof Hres as [Hl Hp].
  set (c := pre ++ a :: b :: post) in *.
  assert (Ina : In a c) by (unfold c; apply in_or_app; right; left; auto).
  assert (Inb : In b c) by (unfold c; apply in_or_app; right; right; left; auto).
  unfold submit. rewrite Hinit. cbn [negb].
  replace (length ds =? length ss + 1)%nat with true by (symmetry; apply Nat.eqb_eq; lia).
  cbn [negb]. rewrite (readJob_known _ _ _ Hjob).
  pose proof (Rep_readTime d c (px a) HR) as HR1.
  pose proof (readTime_val d c a HR Ina) as Hta.
  pose proof (readTime_fields d (px a)) as F1.
  destruct (readTime d (px a)) as [d1 tlow]. cbn [fst snd] in *. subst tlow.
  pose proof (Rep_readTime d1 c (px b) HR1) as HR2.
  pose proof (readTime_val d1 c b HR1 Inb) as Htb.
  pose proof (readTime_fields d1 (px b)) as F2.
  destruct (readTime d1 (px b)) as [d2 tupp]. cbn [fst snd] in *. subst tupp.
  destruct F1 as (F1a&F1b&F1c&F1d&F1e&F1f&F1g&F1h&F1i&F1j&F1k&F1l&F1m&F1n&F1o).
  destruct F2 as (F2a&F2b&F2c&F2d&F2e&F2f&F2g&F2h&F2i&F2j&F2k&F2l&F2m&F2n&F2o).
  pose proof HR as (_&_&_&_&_&Ix&It&_).
  assert (Hds : ds <> []) by (intros ->; discriminate).
  pose proof (Rsum_pos_lt ds Hp Hds) as Hdt.
  destruct (spliced_incr pre a b post level ds ss Ix It Hres) as [Sx St].
  assert (Ec : c = (pre ++ [a]) ++ b :: post) by (unfold c; rewrite <- app_assoc; reflexivity).
  rewrite Ec in It.
  assert (Tab : pt a < pt b).
  { rewrite map_app in It. apply incr_app in It as (_ & _ & It). apply It; [|left; auto].
    apply in_map, in_or_app; right; left; auto. }
  assert (Reqb (pt b - pt a) 0 = false) as -> by (apply Reqb_false; lra).
  unfold length_check in Hck.
  assert (Rltb ((pt b - pt a - Rsum (removelast ds)) / (pt b - pt a)) (1 / 10 ^ 12) = true) as ->
    by (apply Rltb_true; auto).
  cbn [negb]. rewrite timePoints_last.
  replace (pt a + Rsum ds - pt a) with (Rsum ds) by lra.
  assert (Reqb (Rsum ds) 0 = false) as -> by (apply Reqb_false; lra).
  fold (midT a ds).
  change (map (fun tk : R => px a + (px b - px a) * (tk - pt a) / Rsum ds) (midT a ds))
    with (midX a b ds).
  pose proof (midT_length a ds ss Hl) as Hlt.
  pose proof (midX_length a b ds ss Hl) as Hlx.
  pose proof HR2 as (R1&R2&R3&R4&R5&R6&R7&R8). rewrite Ec in R1, R2, R3, R4, R5.
  pose proof Sx as Sx0. pose proof St as St0.
  rewrite spliced_px in Sx0 by auto. rewrite spliced_pt in St0 by auto.
  match goal with |- exists d', rbind (buildMap ?D) _ = _ /\ _ => set (d3 := D) end.
  assert (E3x : d_xi d3 = map px (spliced pre a b post level ds ss)).
  { unfold d3. cbn [d_xi with_knots with_queue].
    rewrite R1, map_app, fold_kinsert, spliced_px; auto. }
  assert (E3t : d_t d3 = map pt (spliced pre a b post level ds ss)).
  { unfold d3. cbn [d_t with_knots with_queue]. rewrite R2, map_app, map_cons.
    rewrite kaddConstant_split by (rewrite map_app, map_cons in It; exact It).
    rewrite <- map_cons. rewrite fold_kinsert, spliced_pt; auto. }
  rewrite (buildMap_ok d3 _ E3x E3t Sx St). cbn [rbind].
  cbn [d_sols d_levels d_prevs with_maps].
  assert (Es : fold_left (fun m e => rset (fst e) (snd e) m) (combine (midX a b ds) ss) (d_sols d3)
               = map (fun p => (px p, ps p)) (spliced pre a b post level ds ss)).
  { unfold d3. cbn [d_sols with_knots with_queue]. rewrite R3, map_app.
    rewrite fold_rset.
    - rewrite spliced_map, newPoints_sols by lia. reflexivity.
    - rewrite !map_app, !map_map, combine_fst by lia. cbn [fst].
      rewrite map_app in Sx0. rewrite <- map_app. rewrite <- map_app in Sx0. exact Sx0. }
  rewrite Es.
  assert (El : fold_left (fun m x => rset x level m) (midX a b ds) (d_levels d3)
               = map (fun p => (px p, pl p)) (spliced pre a b post level ds ss)).
  { unfold d3. cbn [d_levels with_knots with_queue]. rewrite R5, map_app.
    rewrite fold_rset_const.
    - rewrite spliced_map, newPoints_levels by lia. reflexivity.
    - rewrite !map_map. cbn [fst]. exact Sx0. }
  rewrite El.
  assert (Ep : setPrevs (px a) (midX a b ds)
                 (map (fun p => (px p, ps p)) (spliced pre a b post level ds ss)) (d_prevs d3)
               = Ok (map (fun p => (px p, pp p)) (spliced pre a b post level ds ss))).
  { unfold d3. cbn [d_prevs with_knots with_queue]. rewrite R4, map_app.
    rewrite (setPrevs_ok level (px a) (midX a b ds) (midT a ds) ss (ps a)); try lia.
    - rewrite spliced_map. reflexivity.
    - apply (rfind_map_in (spliced pre a b post level ds ss) ps a Sx).
      unfold spliced. apply in_or_app; right; left; auto.
    - intros x s Hin.
      rewrite <- (newPoints_sols level (ps a) (midX a b ds) (midT a ds) ss) in Hin by lia.
      apply in_map_iff in Hin as (q & Eq & Hq). injection Eq as <- <-.
      apply (rfind_map_in (spliced pre a b post level ds ss) ps q Sx).
      unfold spliced. fold (midT a ds). fold (midX a b ds).
      apply in_or_app; right; right. apply in_or_app; auto.
    - rewrite !map_map. cbn [fst]. exact Sx0. }
  rewrite Ep. cbn [rbind].
  eexists. split; [reflexivity|].
  split.
  { unfold Rep. cbn [d_xi d_t d_sols d_prevs d_levels d_tmap with_sols with_maps].
    repeat split; auto. intros p Hin. apply tval_built; auto. }
  unfold d3.
  cbn [d_queue d_jobs d_ID d_maxLevel d_tol d_dt d_init d_optMaxLevel d_optTol d_tmap d_ximap
       with_sols with_maps with_knots with_queue].
  rewrite F2c, F2d, F2m, F1c, F1d, F1m.
  repeat split; congruence.
Qed.

End Proofs.
