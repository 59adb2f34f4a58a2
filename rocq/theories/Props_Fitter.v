(** Properties C82-C87: the curve fitters *)
From Verif Require Import Prelude VS Fitter FitterProofs.
From Coq Require Import Permutation.
Local Open Scope R_scope.

(** a fitter a user can have: constructed, then any calls of addDataPoint, setDegree, options() *)
Inductive fitterState {V : VS} : sfit V -> Prop :=
| FSnew data times deg s : sfNew data times deg = Ok s -> fitterState s
| FSadd s v t : fitterState s -> fitterState (sfAdd v t s)
| FSdeg s d : fitterState s -> fitterState (sfDegree d s)
| FSpar s k : fitterState s -> fitterState (sfParam k s).
(** what is assumed of the constrained fit: the coefficients meet C c = rhs, that is, the spline takes
    the k-th value at the k-th anchor *)
Definition fitLaw {V : VS} (lib : list R -> nat -> list V -> option (list V)) : Prop :=
  forall kn p rhs c, lib kn p rhs = Some c -> length c = length rhs /\
    forall k, (k < length rhs)%nat -> spline kn p c (anchor kn p k) = nth k rhs v0.

Lemma fold_insert_incr {V : VS} (l : list (R * V)) : forall m, incr (map fst m) ->
  incr (map fst (fold_left (fun m e => rinsert (fst e) (snd e) m) l m)).
Proof. induction l as [|e l IH]; intros m H; [exact H|]. cbn. apply IH, rinsert_incr, H. Qed.
Lemma fitterState_incr {V : VS} (s : sfit V) : fitterState s -> incr (map fst (sf_data s)).
Proof.
  induction 1 as [data times deg s H|s v t H IH|s d H IH|s k H IH]; cbn; auto; [|apply rinsert_incr, IH].
  unfold sfNew in H. destruct (Nat.eqb (length data) 0); [discriminate|]. destruct (negb _); [discriminate|]. injection H as <-.
  apply fold_insert_incr, incr_nil.
Qed.
Lemma map_nth_seq (l : list R) : map (fun j => nth j l 0) (seq 0 (length l)) = l.
Proof.
  induction l as [|a l IH]; [reflexivity|]. cbn [length seq map nth]. f_equal. rewrite <- seq_shift, map_map. exact IH.
Qed.
Lemma list_ends (l : list R) : (2 <= length l)%nat ->
  l = nth 0 l 0 :: map (fun j => nth j l 0) (seq 1 (length l - 2)) ++ [last l 0].
Proof.
  intros H. rewrite <- (map_nth_seq l) at 1.
  replace (length l) with (1 + (length l - 2) + 1)%nat at 1 by lia. rewrite seq_app, map_app.
  cbn [Nat.add seq map app]. f_equal. f_equal. f_equal. rewrite last_nth. f_equal. lia.
Qed.

Lemma incr_ends ts : incr ts -> (2 <= length ts)%nat -> hd 0 ts < last ts 0.
Proof. intros H L. rewrite last_nth. destruct ts as [|t l]; [cbn in L; lia|]. apply (incr_nth (t :: l) 0); [exact H|lia]. Qed.

(** *** C83: knot vector *)
Lemma knots_chord k p ts : incr ts -> (2 <= length ts)%nat -> (0 < p < length ts)%nat ->
  exists mid, affine (hd 0 ts) (last ts 0) (chordKnots p (ubar k ts)) = repeat (hd 0 ts) (p + 1) ++ mid ++ repeat (last ts 0) (p + 1) /\
    length mid = (length ts - p - 1)%nat /\ incr (hd 0 ts :: mid ++ [last ts 0]).
Proof.
  intros H L P. destruct (ubar_incr k ts H L) as (U & U0 & U1).
  assert (D : hd 0 ts < last ts 0) by (apply incr_ends; [exact H|lia]).
  pose proof (window_incr (ubar k ts) p U U0 U1 ltac:(lia) ltac:(rewrite ubar_length; lia)) as W.
  apply (incr_affine _ _ _ D) in W. cbn [affine map] in W. rewrite map_app in W. cbn [map] in W.
  unfold chordKnots. unfold affine. rewrite !map_app.
  eexists. split; [f_equal; [|f_equal]|split].
  - etransitivity; [exact (affine_repeat (hd 0 ts) (last ts 0) 0 (p + 1))|]. f_equal. ring.
  - etransitivity; [exact (affine_repeat (hd 0 ts) (last ts 0) 1 (p + 1))|]. f_equal. ring.
  - rewrite !map_length, seq_length, ubar_length. reflexivity.
  - replace (hd 0 ts) with (hd 0 ts + 0 * (last ts 0 - hd 0 ts)) at 1 by ring.
    replace [last ts 0] with [hd 0 ts + 1 * (last ts 0 - hd 0 ts)] by (f_equal; ring). exact W.
Qed.
Lemma knots_uniform a b n p : a < b ->
  exists mid, uniformKnots a b n p = repeat a (p + 1) ++ mid ++ repeat b (p + 1) /\ length mid = n /\ incr (a :: mid ++ [b]).
Proof.
  intros D. unfold uniformKnots. eexists. split; [reflexivity|]. split; [rewrite map_length, seq_length; reflexivity|].
  assert (N : 0 < INR (n + 1)) by (apply lt_0_INR; lia).
  assert (Q : 0 < (b - a) / INR (n + 1)) by (apply Rdiv_lt_0_compat; lra).
  assert (B : forall i, (1 <= i <= n)%nat -> a < a + INR i * ((b - a) / INR (n + 1)) < b).
  { intros i I. assert (0 < INR i) by (apply lt_0_INR; lia). assert (INR i < INR (n + 1)) by (apply lt_INR; lia).
    assert (E : b - a = INR (n + 1) * ((b - a) / INR (n + 1))) by (field; lra). split; nra. }
  apply incr_cons. split.
  - apply incr_app. repeat split; [|apply incr_one|].
    + apply incr_seq_map. intros i I1 I2. rewrite S_INR. lra.
    + intros x y Hx [<-|[]]. apply in_map_iff in Hx as (i & <- & Hi). apply in_seq in Hi. apply B. lia.
  - intros y Hy. apply in_app_iff in Hy as [Hy|[<-|[]]]; [|lra]. apply in_map_iff in Hy as (i & <- & Hi). apply in_seq in Hi. apply B. lia.
Qed.
Theorem C83_knot_vector (V : VS) lib debug (s : sfit V) kn c :
  fitterState s -> (2 <= length (sf_data s))%nat -> sfCompute lib debug s = Ok (kn, c) ->
  let ts := map fst (sf_data s) in
  exists mid, kn = repeat (hd 0 ts) (sf_deg s + 1) ++ mid ++ repeat (last ts 0) (sf_deg s + 1) /\
    length mid = (length (sf_data s) - sf_deg s - 1)%nat /\ (sf_deg s < length (sf_data s))%nat /\ incr (hd 0 ts :: mid ++ [last ts 0]).
Proof.
  intros F L E ts. apply fitterState_incr in F. fold ts in F. assert (Lt : length ts = length (sf_data s)) by apply map_length.
  unfold sfCompute in E. destruct (debug && _); [discriminate|]. destruct (rfind 0 (sf_data s)) as [w0|]; [|discriminate].
  fold ts in E. destruct (sfKnots (sf_param s) (sf_deg s) ts) as [kn'|] eqn:K; [|discriminate]. cbn in E.
  destruct (lib kn' _ _); [|discriminate]. injection E as -> _.
  assert (D : hd 0 ts < last ts 0) by (apply incr_ends; [exact F|lia]).
  unfold sfKnots in K. destruct (sf_param s =? 0)%Z.
  - destruct (length ts <=? sf_deg s)%nat eqn:G; [discriminate|]. apply Nat.leb_gt in G. injection K as <-.
    destruct (knots_uniform (hd 0 ts) (last ts 0) (length ts - (sf_deg s + 1)) (sf_deg s) D) as (mid & A & B & C).
    exists mid. repeat split; auto; lia.
  - destruct (_ || _); [|discriminate]. destruct (length ts <=? 1)%nat; [discriminate|].
    destruct (Nat.eqb (sf_deg s) 0) eqn:Z; [discriminate|]. apply Nat.eqb_neq in Z.
    destruct (length ts <=? sf_deg s)%nat eqn:G; [discriminate|]. apply Nat.leb_gt in G. injection K as <-.
    destruct (knots_chord (sf_param s) (sf_deg s) ts F ltac:(lia) ltac:(lia)) as (mid & A & B & C).
    exists mid. repeat split; auto; lia.
Qed.
Print Assumptions C83_knot_vector.
(** Parametrisation 0: the interior knots divide the range of times evenly; only 0, 1 and 2 are accepted. *)
Theorem C83_equidistant (V : VS) lib debug (s : sfit V) kn c :
  sfCompute lib debug s = Ok (kn, c) -> (sf_param s = 0 \/ sf_param s = 1 \/ sf_param s = 2)%Z /\
  (sf_param s = 0%Z -> forall i, (i < length (sf_data s) - sf_deg s - 1)%nat ->
    nth (sf_deg s + 1 + i) kn 0 = hd 0 (map fst (sf_data s)) + INR (i + 1) * (last (map fst (sf_data s)) 0 - hd 0 (map fst (sf_data s))) / INR (length (sf_data s) - sf_deg s)).
Proof.
  intros E. unfold sfCompute in E. destruct (debug && _); [discriminate|]. destruct (rfind 0 (sf_data s)) as [w0|]; [|discriminate].
  destruct (sfKnots _ _ _) as [kn'|] eqn:K; [|discriminate]. cbn in E. destruct (lib kn' _ _); [|discriminate]. injection E as -> _. unfold sfKnots in K.
  destruct (sf_param s =? 0)%Z eqn:P.
  - apply Z.eqb_eq in P. split; [auto|]. intros _ i Hi. rewrite map_length in K. destruct (length (sf_data s) <=? sf_deg s)%nat eqn:G; [discriminate|].
    apply Nat.leb_gt in G. injection K as <-. unfold uniformKnots. rewrite app_nth2; rewrite repeat_length; [|lia].
    replace (sf_deg s + 1 + i - (sf_deg s + 1))%nat with i by lia. rewrite app_nth1 by (rewrite map_length, seq_length; lia).
    rewrite (nth_indep _ 0 ((fun j => hd 0 (map fst (sf_data s)) + INR j * ((last (map fst (sf_data s)) 0 - hd 0 (map fst (sf_data s))) / INR (length (sf_data s) - (sf_deg s + 1) + 1))) 0%nat)) by (rewrite map_length, seq_length; lia).
    rewrite (map_nth (fun j => hd 0 (map fst (sf_data s)) + INR j * ((last (map fst (sf_data s)) 0 - hd 0 (map fst (sf_data s))) / INR (length (sf_data s) - (sf_deg s + 1) + 1)))).
    rewrite seq_nth by lia. replace (length (sf_data s) - (sf_deg s + 1) + 1)%nat with (length (sf_data s) - sf_deg s)%nat by lia.
    replace (1 + i)%nat with (i + 1)%nat by lia. field. apply not_0_INR. lia.
  - apply Z.eqb_neq in P. split; [|intros; contradiction]. destruct ((sf_param s =? 1)%Z || (sf_param s =? 2)%Z) eqn:Q; [|discriminate].
    apply orb_true_iff in Q as [Q|Q]; apply Z.eqb_eq in Q; auto.
Qed.
Print Assumptions C83_equidistant.

(** *** C82: the fit and the data *)
Theorem C82_fit_at_anchors_partial (V : VS) lib debug (s : sfit V) kn c :
  fitLaw lib -> sfCompute lib debug s = Ok (kn, c) ->
  forall k, (k < length (sf_data s))%nat -> sfSlice (sf_deg s) (kn, c) (anchor kn (sf_deg s) k) = snd (nth k (sf_data s) (0, v0)).
Proof.
  intros Law E k Hk. unfold sfCompute in E. destruct (debug && _); [discriminate|]. destruct (rfind 0 (sf_data s)) as [w0|]; [|discriminate].
  destruct (sfKnots _ _ _) as [kn'|]; [|discriminate]. cbn in E. destruct (lib kn' _ _) eqn:Lb; [|discriminate]. injection E as -> ->.
  destruct (Law _ _ _ _ Lb) as [_ I]. rewrite map_length in I. unfold sfSlice. cbn [fst snd]. rewrite (I k Hk).
  exact (map_nth snd (sf_data s) (0, v0) k).
Qed.
Print Assumptions C82_fit_at_anchors_partial.

Lemma degree_one_knots ts : incr ts -> (2 <= length ts)%nat ->
  forall i, (i < length ts)%nat -> knot (affine (hd 0 ts) (last ts 0) (chordKnots 1 (ubar 1 ts))) (i + 1) = nth i ts 0.
Proof.
  intros H L i Hi. destruct (ubar_incr 1 ts H L) as (_ & U0 & U1).
  assert (E : chordKnots 1 (ubar 1 ts) = 0 :: ubar 1 ts ++ [1]).
  { rewrite (list_ends (ubar 1 ts)) at 2 by (rewrite ubar_length; lia). rewrite U0, U1. unfold chordKnots. cbn [repeat Nat.add app].
    f_equal. f_equal. rewrite <- app_assoc. cbn [app]. replace (length (ubar 1 ts) - 1 - 1)%nat with (length (ubar 1 ts) - 2)%nat by lia.
    f_equal. apply map_ext. intros j. cbn [seq map]. rewrite Rsum_cons, Rsum_nil. change (INR 1) with 1. field. }
  rewrite E. unfold knot, affine. replace (i + 1)%nat with (S i) by lia. cbn [map nth]. rewrite map_app, app_nth1 by (rewrite map_length, ubar_length; lia).
  destruct ts as [|t l]; [cbn in Hi; lia|].
  assert (P : 0 < chordSum 1 t l) by (apply chordSum_pos; [exact H|destruct l; [cbn in L; lia|discriminate]]).
  assert (Lt : last (t :: l) 0 = last l t).
  { clear. revert t. induction l as [|a l IH]; intros t; [reflexivity|]. change (last (t :: a :: l) 0) with (last (a :: l) 0). rewrite IH.
    destruct l; [reflexivity|]. clear. change (last (r :: l) a = last (r :: l) t). revert r. induction l as [|b l IH]; intros r; [reflexivity|exact (IH b)]. }
  unfold ubar. rewrite ubarFrom_chord; [|exact P|field; lra].
  pose proof (chordSum_one l t) as CS. rewrite <- Lt in CS. set (d := chordSum 1 t l) in *. cbn [hd].
  replace (last (t :: l) 0 - t) with d by lra.
  destruct i as [|i]; [cbn; ring|]. cbn [map nth]. rewrite map_map.
  rewrite (nth_indep _ 0 (t + (0 + (0 - t) / d) * d)) by (rewrite map_length; cbn in Hi; lia).
  rewrite (map_nth (fun x => t + (0 + (x - t) / d) * d) l 0 i). field. lra.
Qed.
Theorem C82_degree_one_partial (V : VS) lib debug (s : sfit V) kn c :
  fitLaw lib -> fitterState s -> sf_deg s = 1%nat -> sf_param s = 1%Z -> sfCompute lib debug s = Ok (kn, c) ->
  forall t v, In (t, v) (sf_data s) -> sfSlice (sf_deg s) (kn, c) t = v.
Proof.
  intros Law F Dg Pr E t v Hin. pose proof (C82_fit_at_anchors_partial V lib debug s kn c Law E) as A.
  apply fitterState_incr in F. destruct (In_nth _ _ (0, v0) Hin) as (k & Hk & Ek). specialize (A k Hk). rewrite Ek in A. cbn [snd] in A.
  rewrite <- A. f_equal. rewrite Dg in *.
  unfold sfCompute in E. rewrite Dg, Pr in E. destruct (debug && _); [discriminate|]. destruct (rfind 0 (sf_data s)) as [w0|]; [|discriminate].
  unfold sfKnots in E. cbn [Z.eqb Pos.eqb orb Nat.eqb] in E. rewrite map_length in E.
  destruct (length (sf_data s) <=? 1)%nat eqn:G; [discriminate|]. apply Nat.leb_gt in G.
  cbn [rbind] in E. destruct (lib _ _ _); [|discriminate].
  assert (K : kn = affine (hd 0 (map fst (sf_data s))) (last (map fst (sf_data s)) 0) (chordKnots 1 (ubar 1 (map fst (sf_data s))))) by congruence.
  rewrite K. unfold anchor. cbn [seq map]. rewrite Rsum_cons, Rsum_nil.
  rewrite degree_one_knots; rewrite ?map_length; auto.
  pose proof (map_nth fst (sf_data s) (0, v0) k) as M. rewrite Ek in M. cbn [fst] in M. rewrite M. change (INR 1) with 1. field.
Qed.
Print Assumptions C82_degree_one_partial.

(** between two neighbouring data the fit of degree one is the straight line through them *)
Lemma incr_nth l : incr l -> forall i j, (i < j)%nat -> (j < length l)%nat -> nth i l 0 < nth j l 0.
Proof.
  induction l as [|a l IH]; intros H i j Hij Hj; [cbn in Hj; lia|]. apply incr_cons in H as [H1 H2].
  destruct j as [|j]; [lia|]. cbn [length] in Hj. destruct i as [|i]; cbn [nth]; [apply H2, nth_In; lia|apply IH; [exact H1|lia|lia]].
Qed.
Lemma last_nth (u : list R) : last u 0 = nth (length u - 1) u 0.
Proof. induction u as [|a u IH]; [reflexivity|]. destruct u as [|b u]; [reflexivity|]. change (last (a :: b :: u) 0) with (last (b :: u) 0). rewrite IH. cbn [length]. replace (S (S (length u)) - 1)%nat with (S (S (length u) - 1)) by lia. reflexivity. Qed.
Lemma hd_nth (u : list R) : hd 0 u = nth 0 u 0.
Proof. destruct u; reflexivity. Qed.
(** the knots of degree one: the times, the first and the last twice *)
Lemma degree_one_all ts : incr ts -> (2 <= length ts)%nat ->
  let u := affine (hd 0 ts) (last ts 0) (chordKnots 1 (ubar 1 ts)) in
  length u = (length ts + 2)%nat /\ forall j, (j <= length ts + 1)%nat -> knot u j = nth (Nat.min (j - 1) (length ts - 1)) ts 0.
Proof.
  intros H L u.
  assert (Lu : length (chordKnots 1 (ubar 1 ts)) = (length ts + 2)%nat).
  { unfold chordKnots. rewrite !app_length, !repeat_length, map_length, seq_length, ubar_length. lia. }
  split; [unfold u, affine; rewrite map_length; exact Lu|]. intros j Hj.
  destruct j as [|j].
  - unfold u, chordKnots, affine, knot. cbn [repeat Nat.add app map nth Nat.sub Nat.min]. rewrite hd_nth. ring.
  - destruct (Nat.eq_dec j (length ts)) as [->|N].
    + replace (Nat.min (S (length ts) - 1) (length ts - 1)) with (length ts - 1)%nat by lia. rewrite <- last_nth.
      unfold knot, u, affine.
      rewrite (nth_indep _ 0 ((fun x => hd 0 ts + x * (last ts 0 - hd 0 ts)) 0)) by (rewrite map_length, Lu; lia).
      rewrite (map_nth (fun x => hd 0 ts + x * (last ts 0 - hd 0 ts))).
      replace (nth (S (length ts)) (chordKnots 1 (ubar 1 ts)) 0) with 1; [ring|]. unfold chordKnots.
      rewrite app_assoc, app_nth2; rewrite app_length, repeat_length, map_length, seq_length, ubar_length; [|lia].
      replace (S (length ts) - (1 + 1 + (length ts - 1 - 1)))%nat with 1%nat by lia. reflexivity.
    + replace (S j) with (j + 1)%nat by lia. unfold u. rewrite degree_one_knots by (auto; lia). f_equal. lia.
Qed.
(** x lies in the k-th interval between the times; the last one is closed *)
Definition inSpan (ts : list R) (k : nat) (x : R) : Prop :=
  nth k ts 0 <= x /\ (x < nth (k + 1) ts 0 \/ x = nth (k + 1) ts 0 /\ (k + 2 = length ts)%nat).
Lemma degree_zero_basis ts k x : incr ts -> (k + 1 < length ts)%nat -> inSpan ts k x ->
  forall j, (j <= length ts)%nat -> basisFun (affine (hd 0 ts) (last ts 0) (chordKnots 1 (ubar 1 ts))) 0 j x = if Nat.eqb j (k + 1) then 1 else 0.
Proof.
  intros H Hk [S1 S2] j Hj. destruct (degree_one_all ts H ltac:(lia)) as [Lu Ku]. set (u := affine _ _ _) in *.
  pose proof (incr_nth ts H) as I.
  assert (Le : forall i j, (i <= j)%nat -> (j < length ts)%nat -> nth i ts 0 <= nth j ts 0).
  { intros a b A B. destruct (Nat.eq_dec a b) as [->|]; [lra|]. left. apply I; lia. }
  cbn [basisFun]. assert (El : last u 0 = nth (length ts - 1) ts 0).
  { rewrite last_nth, Lu. change (nth (length ts + 2 - 1) u 0) with (knot u (length ts + 2 - 1)). rewrite Ku by lia. f_equal. lia. }
  rewrite El, !Ku by lia. replace (j + 1 - 1)%nat with j by lia.
  destruct (Nat.eqb j (k + 1)) eqn:Ej.
  - apply Nat.eqb_eq in Ej as ->. replace (Nat.min (k + 1 - 1) (length ts - 1)) with k by lia. replace (Nat.min (k + 1) (length ts - 1)) with (k + 1)%nat by lia.
    specialize (I k (k + 1)%nat ltac:(lia) Hk). destruct S2 as [S2|[S2 S3]].
    + apply Rleb_true in S1. apply Rltb_true in S2. rewrite S1, S2. reflexivity.
    + replace (length ts - 1)%nat with (k + 1)%nat by lia. rewrite <- S2 in *. rewrite (proj2 (Reqb_true x x) eq_refl), (proj2 (Rltb_true _ _) I).
      cbn [andb]. rewrite orb_true_r. reflexivity.
  - apply Nat.eqb_neq in Ej. match goal with |- (if ?b then 1 else 0) = 0 => destruct b eqn:B; [exfalso|reflexivity] end.
    apply orb_true_iff in B as [B|B].
    + apply andb_true_iff in B as [B1 B2]. apply Rleb_true in B1. apply Rltb_true in B2.
      destruct (le_lt_dec j k) as [J|J].
      * pose proof (Le (Nat.min j (length ts - 1)) k ltac:(lia) ltac:(lia)). lra.
      * pose proof (Le (k + 1)%nat (Nat.min (j - 1) (length ts - 1)) ltac:(lia) ltac:(lia)).
        destruct S2 as [S2|[S2 S3]]; [lra|]. pose proof (Le (Nat.min j (length ts - 1)) (k + 1)%nat ltac:(lia) ltac:(lia)). lra.
    + apply andb_true_iff in B as [B B3]. apply andb_true_iff in B as [B1 B2]. apply Reqb_true in B1, B3. apply Rltb_true in B2.
      destruct S2 as [S2|[S2 S3]]; [pose proof (Le (k + 1)%nat (length ts - 1)%nat ltac:(lia) ltac:(lia)); lra|].
      destruct (le_lt_dec j k) as [J|J].
      * pose proof (I (Nat.min j (length ts - 1)) (k + 1)%nat ltac:(lia) ltac:(lia)). lra.
      * pose proof (Le (k + 1)%nat (Nat.min (j - 1) (length ts - 1)) ltac:(lia) ltac:(lia)). lra.
Qed.
Lemma splineFrom_zero {V : VS} u p x (c : list V) : forall i, (forall j, (i <= j < i + length c)%nat -> basisFun u p j x = 0) -> splineFrom u p i c x = v0.
Proof.
  induction c as [|a c IH]; intros i H; [reflexivity|]. cbn [splineFrom]. cbn [length] in H. rewrite IH by (intros j Hj; apply H; lia).
  rewrite (H i) by lia. vring.
Qed.
Lemma splineFrom_two {V : VS} u p x k (c : list V) : forall i, (i <= k)%nat -> (k + 1 < i + length c)%nat ->
  (forall j, (i <= j < i + length c)%nat -> j <> k -> j <> (k + 1)%nat -> basisFun u p j x = 0) ->
  splineFrom u p i c x = basisFun u p k x *v nth (k - i) c v0 +v basisFun u p (k + 1) x *v nth (k + 1 - i) c v0.
Proof.
  induction c as [|a c IH]; intros i Hi Hk H; [cbn in Hk; lia|]. cbn [splineFrom]. cbn [length] in H, Hk. destruct (Nat.eq_dec i k) as [->|N].
  - rewrite Nat.sub_diag. replace (k + 1 - k)%nat with 1%nat by lia. cbn [nth]. destruct c as [|b c]; [cbn in Hk; lia|].
    cbn [splineFrom nth]. cbn [length] in H. rewrite splineFrom_zero by (intros j Hj; apply H; lia). replace (S k) with (k + 1)%nat by lia. vring.
  - rewrite (IH (S i)) by (try lia; intros j Hj; apply H; lia). rewrite (H i) by lia.
    replace (k - i)%nat with (S (k - S i)) by lia. replace (k + 1 - i)%nat with (S (k + 1 - S i)) by lia. cbn [nth]. vring.
Qed.
Lemma degree_one_spline {V : VS} ts k x (c : list V) : incr ts -> (k + 1 < length ts)%nat -> length c = length ts -> inSpan ts k x ->
  spline (affine (hd 0 ts) (last ts 0) (chordKnots 1 (ubar 1 ts))) 1 c x =
  ((nth (k + 1) ts 0 - x) / (nth (k + 1) ts 0 - nth k ts 0)) *v nth k c v0 +v ((x - nth k ts 0) / (nth (k + 1) ts 0 - nth k ts 0)) *v nth (k + 1) c v0.
Proof.
  intros H Hk Lc S. pose proof (degree_zero_basis ts k x H Hk S) as Z. destruct (degree_one_all ts H ltac:(lia)) as [Lu Ku]. set (u := affine _ _ _) in *.
  pose proof (incr_nth ts H k (k + 1) ltac:(lia) Hk) as Hs.
  unfold spline. rewrite (splineFrom_two u 1 x k c 0) by (try lia; intros j Hj N1 N2; cbn [basisFun];
    change (basisFun u 0 j x) with (basisFun u 0 j x); fold (basisFun u 0 j x) (basisFun u 0 (j + 1) x); rewrite (Z j), (Z (j + 1)%nat) by lia;
    rewrite (proj2 (Nat.eqb_neq j (k + 1))), (proj2 (Nat.eqb_neq (j + 1) (k + 1))) by lia; ring).
  rewrite !Nat.sub_0_r.
  assert (B1 : basisFun u 1 k x = (nth (k + 1) ts 0 - x) / (nth (k + 1) ts 0 - nth k ts 0)).
  { change (basisFun u 1 k x) with (frac (x - knot u k) (knot u (k + 1) - knot u k) * basisFun u 0 k x + frac (knot u (k + 1 + 1) - x) (knot u (k + 1 + 1) - knot u (k + 1)) * basisFun u 0 (k + 1) x).
    rewrite !Z by lia. rewrite Nat.eqb_refl, (proj2 (Nat.eqb_neq k (k + 1))) by lia. rewrite (Ku (k + 1 + 1)%nat), (Ku (k + 1)%nat) by lia.
    replace (Nat.min (k + 1 + 1 - 1) (length ts - 1)) with (k + 1)%nat by lia. replace (Nat.min (k + 1 - 1) (length ts - 1)) with k by lia.
    unfold frac at 2. rewrite (proj2 (Reqb_false _ 0)) by lra. ring. }
  assert (B2 : basisFun u 1 (k + 1) x = (x - nth k ts 0) / (nth (k + 1) ts 0 - nth k ts 0)).
  { change (basisFun u 1 (k + 1) x) with (frac (x - knot u (k + 1)) (knot u (k + 1 + 1) - knot u (k + 1)) * basisFun u 0 (k + 1) x + frac (knot u (k + 1 + 1 + 1) - x) (knot u (k + 1 + 1 + 1) - knot u (k + 1 + 1)) * basisFun u 0 (k + 1 + 1) x).
    rewrite !Z by lia. rewrite Nat.eqb_refl, (proj2 (Nat.eqb_neq (k + 1 + 1) (k + 1))) by lia. rewrite (Ku (k + 1 + 1)%nat), (Ku (k + 1)%nat) by lia.
    replace (Nat.min (k + 1 + 1 - 1) (length ts - 1)) with (k + 1)%nat by lia. replace (Nat.min (k + 1 - 1) (length ts - 1)) with k by lia.
    unfold frac at 1. rewrite (proj2 (Reqb_false _ 0)) by lra. ring. }
  rewrite B1, B2. reflexivity.
Qed.
Theorem C82_between_partial (V : VS) lib debug (s : sfit V) kn c :
  fitLaw lib -> fitterState s -> sf_deg s = 1%nat -> sf_param s = 1%Z -> sfCompute lib debug s = Ok (kn, c) ->
  forall l t v t' v' r, sf_data s = l ++ (t, v) :: (t', v') :: r -> forall x, t <= x <= t' ->
  sfSlice (sf_deg s) (kn, c) x = ((t' - x) / (t' - t)) *v v +v ((x - t) / (t' - t)) *v v'.
Proof.
  intros Law F Dg Pr E l t v t' v' r D x Hx. pose proof (C82_degree_one_partial V lib debug s kn c Law F Dg Pr E) as At.
  apply fitterState_incr in F. rewrite Dg in *.
  unfold sfCompute in E. rewrite Dg, Pr in E. destruct (debug && _); [discriminate|]. destruct (rfind 0 (sf_data s)) as [w0|]; [|discriminate].
  unfold sfKnots in E. cbn [Z.eqb Pos.eqb orb Nat.eqb] in E. rewrite map_length in E.
  destruct (length (sf_data s) <=? 1)%nat eqn:G; [discriminate|]. apply Nat.leb_gt in G.
  cbn [rbind] in E. destruct (lib _ _ _) as [c'|] eqn:Lb; [|discriminate]. destruct (Law _ _ _ _ Lb) as [Lc _]. rewrite map_length in Lc.
  assert (K : kn = affine (hd 0 (map fst (sf_data s))) (last (map fst (sf_data s)) 0) (chordKnots 1 (ubar 1 (map fst (sf_data s))))) by congruence.
  assert (c' = c) by congruence. subst c'. clear E Lb Law. set (ts := map fst (sf_data s)) in *.
  assert (Lt : length ts = length (sf_data s)) by (unfold ts; apply map_length).
  assert (Sl : forall k x, (k + 1 < length ts)%nat -> inSpan ts k x -> sfSlice 1 (kn, c) x =
    ((nth (k + 1) ts 0 - x) / (nth (k + 1) ts 0 - nth k ts 0)) *v nth k c v0 +v ((x - nth k ts 0) / (nth (k + 1) ts 0 - nth k ts 0)) *v nth (k + 1) c v0).
  { intros k y Hk S. unfold sfSlice. cbn [fst snd]. rewrite K. apply degree_one_spline; auto; lia. }
  pose proof (incr_nth ts F) as I.
  (** the coefficients are the data *)
  assert (Cf : forall k, (k < length ts)%nat -> nth k c v0 = snd (nth k (sf_data s) (0, v0))).
  { intros k Hk. assert (A : sfSlice 1 (kn, c) (nth k ts 0) = snd (nth k (sf_data s) (0, v0))).
    { apply At. pose proof (map_nth fst (sf_data s) (0, v0) k) as M. cbn [fst] in M. fold ts in M. rewrite M, <- surjective_pairing. apply nth_In. lia. }
    destruct (le_lt_dec (length ts) (k + 1)) as [J|J].
    - replace k with (k - 1 + 1)%nat in A at 1 by lia.
      rewrite (Sl (k - 1)%nat) in A; [|lia|split; [left; apply I; lia|right; split; [reflexivity|lia]]].
      replace (k - 1 + 1)%nat with k in A by lia. pose proof (I (k - 1)%nat k ltac:(lia) Hk). rewrite <- A.
      replace ((nth k ts 0 - nth k ts 0) / (nth k ts 0 - nth (k - 1) ts 0)) with 0 by (field; lra).
      replace ((nth k ts 0 - nth (k - 1) ts 0) / (nth k ts 0 - nth (k - 1) ts 0)) with 1 by (field; lra). vring.
    - pose proof (I k (k + 1)%nat ltac:(lia) J). rewrite (Sl k) in A; [|lia|split; [lra|left; exact H]]. rewrite <- A.
      replace ((nth (k + 1) ts 0 - nth k ts 0) / (nth (k + 1) ts 0 - nth k ts 0)) with 1 by (field; lra).
      replace ((nth k ts 0 - nth k ts 0) / (nth (k + 1) ts 0 - nth k ts 0)) with 0 by (field; lra). vring. }
  set (k := length l).
  assert (N1 : nth k (sf_data s) (0, v0) = (t, v)) by (rewrite D; unfold k; rewrite app_nth2, Nat.sub_diag by lia; reflexivity).
  assert (N2 : nth (k + 1) (sf_data s) (0, v0) = (t', v')) by (rewrite D; unfold k; rewrite app_nth2 by lia; replace (length l + 1 - length l)%nat with 1%nat by lia; reflexivity).
  assert (Hk : (k + 1 < length ts)%nat) by (rewrite Lt, D, app_length; cbn [length]; unfold k; lia).
  assert (T1 : nth k ts 0 = t) by (pose proof (map_nth fst (sf_data s) (0, v0) k) as M; cbn [fst] in M; fold ts in M; rewrite M, N1; reflexivity).
  assert (T2 : nth (k + 1) ts 0 = t') by (pose proof (map_nth fst (sf_data s) (0, v0) (k + 1)) as M; cbn [fst] in M; fold ts in M; rewrite M, N2; reflexivity).
  pose proof (I k (k + 1)%nat ltac:(lia) Hk) as Ht. rewrite T1, T2 in Ht.
  destruct (Rlt_dec x t') as [X|X].
  - rewrite (Sl k x Hk) by (split; [rewrite T1; lra|left; rewrite T2; lra]). rewrite T1, T2, !Cf by lia. rewrite N1, N2. reflexivity.
  - assert (x = t') by lra. subst x. rewrite (At t' v') by (rewrite D; apply in_or_app; right; cbn; auto).
    replace ((t' - t') / (t' - t)) with 0 by (field; lra). replace ((t' - t) / (t' - t)) with 1 by (field; lra). vring.
Qed.
Print Assumptions C82_between_partial.

Ltac decR := repeat match goal with
  | |- context [Reqb ?a ?b] => first [replace (Reqb a b) with true by (symmetry; apply Reqb_true; lra) | replace (Reqb a b) with false by (symmetry; apply Reqb_false; lra)]
  | |- context [Rltb ?a ?b] => first [replace (Rltb a b) with true by (symmetry; apply Rltb_true; lra) | replace (Rltb a b) with false by (symmetry; apply Rltb_false; lra)]
  | |- context [Rleb ?a ?b] => first [replace (Rleb a b) with true by (symmetry; apply Rleb_true; lra) | replace (Rleb a b) with false by (symmetry; apply Rleb_false; lra)]
  end.
Definition kn4 : list R := [0; 0; 0; 4; 4; 4].
Ltac basis := unfold basisFun, knot, kn4, frac; cbn [nth Nat.add last]; decR; cbn [andb orb]; try lra.
Lemma kn4_basis x : 0 <= x < 4 -> basisFun kn4 2 0 x = (1 - x / 4) * (1 - x / 4) /\ basisFun kn4 2 1 x = 2 * (x / 4) * (1 - x / 4) /\ basisFun kn4 2 2 x = x / 4 * (x / 4).
Proof. intros H. repeat split; basis; field. Qed.
Lemma kn4_end : basisFun kn4 2 0 4 = 0 /\ basisFun kn4 2 1 4 = 0 /\ basisFun kn4 2 2 4 = 1.
Proof. repeat split; basis. Qed.
Lemma kn4_anchors : anchor kn4 2 0 = 0 /\ anchor kn4 2 1 = 2 /\ anchor kn4 2 2 = 4.
Proof. unfold anchor, knot, kn4. cbn [seq map Nat.add nth INR]. rewrite !Rsum_cons, !Rsum_nil. repeat split; lra. Qed.
(** a spline of degree two on kn4 with the values 0, 1, 0 at the anchors *)
Lemma kn4_values (c : list VS_R) : length c = 3%nat ->
  (forall k, (k < 3)%nat -> spline (V := VS_R) kn4 2 c (anchor kn4 2 k) = nth k [0; 1; 0] 0) -> spline (V := VS_R) kn4 2 c 1 = 3 / 4.
Proof.
  intros L H. destruct c as [|c0 [|c1 [|c2 [|]]]]; try discriminate L. destruct kn4_anchors as (A0 & A1 & A2).
  pose proof (H 0%nat ltac:(lia)) as H0. pose proof (H 1%nat ltac:(lia)) as H1. pose proof (H 2%nat ltac:(lia)) as H2.
  rewrite A0 in H0. rewrite A1 in H1. rewrite A2 in H2. unfold spline, splineFrom in *.
  destruct (kn4_basis 0 ltac:(lra)) as (P & Q & S). rewrite P, Q, S in H0. clear P Q S.
  destruct (kn4_basis 2 ltac:(lra)) as (P & Q & S). rewrite P, Q, S in H1. clear P Q S.
  destruct kn4_end as (P & Q & S). rewrite P, Q, S in H2. clear P Q S.
  destruct (kn4_basis 1 ltac:(lra)) as (P & Q & S). rewrite P, Q, S. clear P Q S.
  cbn in *. lra.
Qed.
Definition ex82 : sfit VS_R := @mkSF VS_R [(0, 0); (1, 1); (4, 0)] 2 1.
Lemma ex82_new : sfNew (V := VS_R) [0; 1; 0] [0; 1; 4] 2 = Ok ex82.
Proof. unfold sfNew, minsert. cbn. decR. cbn. decR. cbn. decR. reflexivity. Qed.
Lemma ex82_knots : sfKnots 1 2 [0; 1; 4] = Ok kn4.
Proof. unfold sfKnots, chordKnots, affine, kn4. cbn. f_equal. repeat f_equal; ring. Qed.
(** whatever solver is used, as long as it meets its constraints *)
Theorem C82_through_data_refuted : exists (s : sfit VS_R) (t v : R), sfNew (V := VS_R) [0; 1; 0] [0; 1; 4] 2 = Ok s /\ In (t, v) (sf_data s) /\
  forall lib debug kn c, fitLaw lib -> sfCompute lib debug s = Ok (kn, c) -> sfSlice (sf_deg s) (kn, c) t <> v.
Proof.
  exists ex82, 1, 1. split; [exact ex82_new|]. split; [cbn; auto|]. intros lib debug kn c Law E.
  unfold sfCompute in E. cbn [ex82 sf_data sf_deg sf_param map fst snd length] in E. destruct (debug && _); [discriminate|].
  destruct (rfind 0 _); [|discriminate]. rewrite ex82_knots in E. cbn [rbind] in E. destruct (lib _ _ _) eqn:Lb; [|discriminate]. injection E as <- <-.
  destruct (Law _ _ _ _ Lb) as [L I]. unfold sfSlice. cbn [fst snd ex82 sf_deg]. rewrite kn4_values; [lra|exact L|exact I].
Qed.
Print Assumptions C82_through_data_refuted.
(** a solver that meets the law and answers for this data *)
Definition lib4 (kn : list R) (p : nat) (rhs : list VS_R) : option (list VS_R) :=
  if list_eq_dec Req_EM_T kn kn4 then if Nat.eqb p 2 then if list_eq_dec Req_EM_T rhs [0; 1; 0] then Some [0; 2; 0] else None else None else None.
Lemma lib4_law : fitLaw lib4.
Proof.
  intros kn p rhs c H. unfold lib4 in H. destruct (list_eq_dec Req_EM_T kn kn4) as [->|]; [|discriminate].
  destruct (Nat.eqb p 2) eqn:P; [|discriminate]. apply Nat.eqb_eq in P as ->. destruct (list_eq_dec Req_EM_T rhs [0; 1; 0]) as [->|]; [|discriminate].
  injection H as <-. split; [reflexivity|]. destruct kn4_anchors as (A0 & A1 & A2). intros k Hk. cbn [length] in Hk. unfold spline, splineFrom.
  destruct k as [|[|[|]]]; [rewrite A0|rewrite A1|rewrite A2|lia].
  - destruct (kn4_basis 0 ltac:(lra)) as (P & Q & S). rewrite P, Q, S. cbn. lra.
  - destruct (kn4_basis 2 ltac:(lra)) as (P & Q & S). rewrite P, Q, S. cbn. lra.
  - destruct kn4_end as (P & Q & S). rewrite P, Q, S. cbn. lra.
Qed.
Example C82_C83_example : fitLaw lib4 /\ fitterState ex82 /\ sfCompute lib4 true ex82 = Ok (kn4, [0; 2; 0]).
Proof.
  split; [exact lib4_law|]. split; [exact (FSnew _ _ _ _ ex82_new)|].
  unfold sfCompute. cbn [ex82 sf_data sf_deg sf_param map fst snd length Nat.leb andb]. cbn [mfind]. decR. rewrite ex82_knots. cbn [rbind].
  unfold lib4. destruct (list_eq_dec Req_EM_T kn4 kn4); [|congruence]. cbn [Nat.eqb]. match goal with |- context [list_eq_dec ?d ?a ?b] => destruct (list_eq_dec d a b) as [|N] end; [reflexivity|destruct N; reflexivity].
Qed.

(** degree one on the same times: hat functions *)
Definition kn1 : list R := [0; 0; 1; 4; 4].
Definition lib1 (kn : list R) (p : nat) (rhs : list VS_R) : option (list VS_R) :=
  if list_eq_dec Req_EM_T kn kn1 then if Nat.eqb p 1 then if Nat.eqb (length rhs) 3 then Some rhs else None else None else None.
Lemma lib1_law : fitLaw lib1.
Proof.
  intros kn p rhs c H. unfold lib1 in H. destruct (list_eq_dec Req_EM_T kn kn1) as [->|]; [|discriminate].
  destruct (Nat.eqb p 1) eqn:P; [|discriminate]. apply Nat.eqb_eq in P as ->. destruct (Nat.eqb (length rhs) 3) eqn:L; [|discriminate].
  apply Nat.eqb_eq in L. injection H as <-. split; [reflexivity|]. intros k Hk. destruct rhs as [|r0 [|r1 [|r2 [|]]]]; try discriminate L.
  unfold anchor. cbn [seq map]. rewrite Rsum_cons, Rsum_nil. unfold spline, splineFrom.
  destruct k as [|[|[|]]]; [change (knot kn1 (0 + 1)) with 0|change (knot kn1 (1 + 1)) with 1|change (knot kn1 (2 + 1)) with 4|cbn [length] in Hk; lia];
    change (INR 1) with 1; (match goal with |- context [(?x + 0) / 1] => replace ((x + 0) / 1) with x by field end);
    unfold basisFun, knot, kn1, frac; cbn [nth Nat.add last]; decR; cbn; lra.
Qed.
Example C82_degree_one_example : fitLaw lib1 /\ fitterState (sfDegree 1 ex82) /\ sf_param ex82 = 1%Z /\ sfCompute lib1 true (sfDegree 1 ex82) = Ok (kn1, [0; 1; 0]).
Proof.
  split; [exact lib1_law|]. split; [exact (FSdeg _ _ (FSnew _ _ _ _ ex82_new))|]. split; [reflexivity|].
  assert (K : sfKnots 1 1 [0; 1; 4] = Ok kn1).
  { assert (D : affine 0 4 (chordKnots 1 (ubar 1 [0; 1; 4])) = kn1).
    { unfold chordKnots, affine, kn1. cbn [repeat Nat.add app map length ubar ubarFrom Nat.sub seq chordSum]. unfold parPow. cbn [Z.eqb Pos.eqb nth INR]. rewrite Rsum_cons, Rsum_nil. repeat f_equal; lra. }
    rewrite <- D. reflexivity. }
  unfold sfCompute. cbn [sfDegree ex82 sf_data sf_deg sf_param map fst snd length Nat.leb andb mfind]. decR. rewrite K. cbn [rbind].
  unfold lib1. destruct (list_eq_dec Req_EM_T kn1 kn1); [reflexivity|congruence].
Qed.

(** *** C84: the data *)
Theorem C84_add_partial (V : VS) (s : sfit V) v t : fitterState s ->
  incr (map fst (sf_data (sfAdd v t s))) /\
  forall x, rfind x (sf_data (sfAdd v t s)) = match rfind x (sf_data s) with Some w => Some w | None => if Reqb x t then Some v else None end.
Proof. intros F. split; [apply fitterState_incr, FSadd, F|]. intros x. apply rfind_rinsert. Qed.
Print Assumptions C84_add_partial.
Theorem C84_new_value_used_refuted : exists (s : sfit VS_R) v t, fitterState s /\ rfind t (sf_data (sfAdd v t s)) <> Some v.
Proof. exists ex82, 7, 1. split; [exact (FSnew _ _ _ _ ex82_new)|]. cbn [sfAdd sf_data]. rewrite rfind_rinsert. cbn. decR. injection. lra. Qed.
Print Assumptions C84_new_value_used_refuted.
(** without a point at time zero there is no fit, whatever the solver *)
Theorem C84_no_time_zero_refuted : exists s : sfit VS_R, fitterState s /\ (sf_deg s < length (sf_data s))%nat /\
  forall lib debug, sfCompute lib debug s = Fail ERange.
Proof.
  exists (@mkSF VS_R [(1, 0); (2, 1); (4, 0)] 2 1). split.
  - apply (FSnew (V := VS_R) [0; 1; 0] [1; 2; 4] 2). unfold sfNew, minsert. cbn. decR. cbn. decR. cbn. decR. reflexivity.
  - split; [cbn; lia|]. intros lib debug. unfold sfCompute. cbn. rewrite andb_false_r. decR. reflexivity.
Qed.
Print Assumptions C84_no_time_zero_refuted.

(** *** C85: nearestParam *)
Lemma nearBest_spec (V : VS) (x x1 x2 : R -> V) a b p n l : forall best r, nearBest x x1 x2 a b p n best l = Some r ->
  (r = best \/ exists t, In t l /\ nearNewton x x1 x2 a b p n t = Some r) /\ sqDist x p r <= sqDist x p best /\
  forall t, In t l -> exists u, nearNewton x x1 x2 a b p n t = Some u /\ sqDist x p r <= sqDist x p u.
Proof.
  induction l as [|t l IH]; intros best r H; cbn in H; [injection H as <-; repeat split; [auto|lra|intros t []]|].
  destruct (nearNewton x x1 x2 a b p n t) as [u|] eqn:E; [|discriminate]. apply IH in H as (A & B & C).
  assert (D : sqDist x p (if Rltb (sqDist x p u) (sqDist x p best) then u else best) <= sqDist x p best /\
              sqDist x p (if Rltb (sqDist x p u) (sqDist x p best) then u else best) <= sqDist x p u).
  { destruct (Rltb (sqDist x p u) (sqDist x p best)) eqn:G; [apply Rltb_true in G|apply Rltb_false in G]; lra. }
  repeat split.
  - destruct A as [->|(t' & I & J)]; [|right; exists t'; cbn; auto].
    destruct (Rltb _ _); [right; exists t; cbn; auto|left; reflexivity].
  - lra.
  - intros t' [<-|I]; [exists u; split; [exact E|lra]|auto].
Qed.
Lemma nearNewton_range (V : VS) (x x1 x2 : R -> V) a b p n : a <= b -> forall u r, a <= u <= b -> nearNewton x x1 x2 a b p n u = Some r ->
  a <= r <= b \/ exists w, a <= w <= b /\ Rabs (w - r) < 1 / 100000000 * Rabs r.
Proof.
  intros AB. induction n as [|n IH]; intros u r U H; [injection H as <-; auto|]. cbn [nearNewton] in H.
  destruct (Reqb _ 0).
  - destruct (Reqb _ 0); [discriminate|]. apply IH in H; [exact H|]. destruct (Rltb _ _); lra.
  - match type of H with context [u - ?d] => set (du := d) in * end.
    destruct (negb (Reqb (u - du) 0) && Rltb (Rabs du / Rabs (u - du)) (1 / 100000000)) eqn:T.
    + injection H as <-. apply andb_true_iff in T as [T1 T2]. apply negb_true_iff, Reqb_false in T1. apply Rltb_true in T2.
      right. exists u. split; [exact U|]. pose proof (Rabs_pos_lt _ T1) as P. replace (u - (u - du)) with du by ring.
      apply Rmult_lt_compat_r with (r := Rabs (u - du)) in T2; [|exact P]. unfold Rdiv in T2 at 1. rewrite Rmult_assoc, Rinv_l, Rmult_1_r in T2 by lra. exact T2.
    + apply IH in H; [exact H|]. unfold clampR. destruct (Rltb (u - du) a) eqn:X; [lra|]. apply Rltb_false in X.
      destruct (Rltb b (u - du)) eqn:Y; [lra|]. apply Rltb_false in Y. lra.
Qed.
Theorem C85_nearest_param_partial (V : VS) (x x1 x2 : R -> V) a b p n trials r :
  a <= b -> (forall t, In t trials -> a <= t <= b) -> nearestParam x x1 x2 a b p n trials = Some r ->
  (exists t, In t trials /\ nearNewton x x1 x2 a b p n t = Some r) /\
  (forall t, In t trials -> exists u, nearNewton x x1 x2 a b p n t = Some u /\ dot (p -v x r) (p -v x r) <= dot (p -v x u) (p -v x u)) /\
  (a <= r <= b \/ exists w, a <= w <= b /\ Rabs (w - r) < 1 / 100000000 * Rabs r).
Proof.
  intros AB T H. unfold nearestParam in H. destruct trials as [|t l]; [discriminate|].
  destruct (nearNewton x x1 x2 a b p n t) as [u|] eqn:E; [|discriminate]. apply nearBest_spec in H as (A & B & C).
  assert (W : exists t', In t' (t :: l) /\ nearNewton x x1 x2 a b p n t' = Some r).
  { destruct A as [->|(t' & I & J)]; [exists t|exists t']; cbn; auto. }
  split; [exact W|]. split.
  - intros t' [<-|I]; [exists u; auto|auto].
  - destruct W as (t' & I & J). exact (nearNewton_range V x x1 x2 a b p n AB t' r (T t' I) J).
Qed.
Print Assumptions C85_nearest_param_partial.
(** the straight line x(u) = u on [0,1], p behind its end *)
Lemma near_line : nearestParam (V := VS_R) (fun u => u) (fun _ => 1) (fun _ => 0) 0 1 (1 + 1 / 1000000000) 100 [0; 1] = Some (1 + 1 / 1000000000).
Proof.
  assert (N1 : forall n, nearNewton (V := VS_R) (fun u => u) (fun _ => 1) (fun _ => 0) 0 1 (1 + 1 / 1000000000) (S n) 1 = Some (1 + 1 / 1000000000)).
  { intros n. cbn [nearNewton]. unfold vsub, vopp. cbn [dot vadd vscale VS_R vec].
    match goal with |- context [Reqb ?d 0] => replace d with 2 by ring end. decR.
    match goal with |- context [1 - ?d] => replace (1 - d) with (1 + 1 / 1000000000) by field; replace d with (- (1 / 1000000000)) by field end.
    decR. rewrite Rabs_Ropp, !Rabs_pos_eq by lra. decR. reflexivity. }
  assert (N0 : forall n, nearNewton (V := VS_R) (fun u => u) (fun _ => 1) (fun _ => 0) 0 1 (1 + 1 / 1000000000) (S n) 0 =
    nearNewton (V := VS_R) (fun u => u) (fun _ => 1) (fun _ => 0) 0 1 (1 + 1 / 1000000000) n 1).
  { intros n. cbn [nearNewton]. unfold vsub, vopp. cbn [dot vadd vscale VS_R vec].
    match goal with |- context [Reqb ?d 0] => replace d with 2 by ring end. decR.
    match goal with |- context [0 - ?d] => replace (0 - d) with (1 + 1 / 1000000000) by field; replace d with (- (1 + 1 / 1000000000)) by field end.
    decR. rewrite Rabs_Ropp, !Rabs_pos_eq by lra. decR. cbn [negb andb]. unfold clampR. decR. reflexivity. }
  unfold nearestParam, nearBest. rewrite (N0 99%nat), (N1 98%nat), (N1 99%nat). rewrite Rltb_irrefl. reflexivity.
Qed.
Theorem C85_in_support_refuted : exists (x x1 x2 : R -> VS_R) a b p n trials r, a < b /\
  (forall u, derivable_pt_lim x u (x1 u)) /\ (forall u, derivable_pt_lim x1 u (x2 u)) /\ (forall t, In t trials -> a <= t <= b) /\
  nearestParam x x1 x2 a b p n trials = Some r /\ b < r.
Proof.
  exists (fun u => u), (fun _ => 1), (fun _ => 0), 0, 1, (1 + 1 / 1000000000), 100%nat, [0; 1], (1 + 1 / 1000000000).
  split; [lra|]. split; [exact derivable_pt_lim_id|]. split; [exact (derivable_pt_lim_const 1)|].
  split; [intros t [<-|[<-|[]]]; lra|]. split; [exact near_line|lra].
Qed.
Print Assumptions C85_in_support_refuted.
(** A straight curve x(u) = q + u d: with at least one iteration and at least one trial point the answer
    is as near to p as every point of the support. *)
Section Line.
Context {V : VS}.
Variables q d p : V.
Variables a b : R.
Hypothesis Hd : 0 < dot d d.
Let line := fun u => q +v u *v d.
Let ustar := dot (p -v q) d / dot d d.
Lemma line_dist u : sqDist line p u = sqDist line p ustar + dot d d * (u - ustar) * (u - ustar).
Proof.
  unfold sqDist, line. autorewrite with dot. rewrite (dot_sym _ d q), (dot_sym _ d p), (dot_sym _ q p).
  assert (E : dot d d * ustar = dot p d - dot q d) by (unfold ustar; rewrite dot_sub_l; field; lra).
  generalize dependent ustar. intros w E. replace (dot p d) with (dot d d * w + dot q d) by lra. ring.
Qed.
Lemma line_newton n t : nearNewton line (fun _ => d) (fun _ => v0) a b p (S n) t = Some ustar \/
  nearNewton line (fun _ => d) (fun _ => v0) a b p (S n) t = nearNewton line (fun _ => d) (fun _ => v0) a b p n (clampR a b ustar).
Proof.
  cbn [nearNewton].
  assert (E1 : dot (p -v line t) d = dot d d * (ustar - t)).
  { unfold line, ustar. autorewrite with dot. field. lra. }
  assert (E2 : dot (p -v line t) v0 = 0) by apply dot_0_r.
  rewrite E1, E2. destruct (Reqb (2 * dot d d - 2 * 0) 0) eqn:G; [apply Reqb_true in G; lra|].
  replace (t - -2 * (dot d d * (ustar - t)) / (2 * dot d d - 2 * 0)) with ustar by (field; lra).
  destruct (negb (Reqb ustar 0) && _); auto.
Qed.
Lemma line_newton_all n t : nearNewton line (fun _ => d) (fun _ => v0) a b p (S n) t = Some ustar \/
  nearNewton line (fun _ => d) (fun _ => v0) a b p (S n) t = Some (clampR a b ustar).
Proof.
  revert t. induction n as [|n IH]; intros t; [destruct (line_newton 0 t) as [E|E]|destruct (line_newton (S n) t) as [E|E]]; rewrite E; auto.
Qed.
Lemma clamp_near u : a <= u <= b -> dot d d * (clampR a b ustar - ustar) * (clampR a b ustar - ustar) <= dot d d * (u - ustar) * (u - ustar).
Proof.
  intros H. unfold clampR. destruct (Rltb ustar a) eqn:E1; [apply Rltb_true in E1|apply Rltb_false in E1; destruct (Rltb b ustar) eqn:E2; [apply Rltb_true in E2|apply Rltb_false in E2]].
  - assert ((a - ustar) * (a - ustar) <= (u - ustar) * (u - ustar)) by nra. rewrite !Rmult_assoc. apply Rmult_le_compat_l; lra.
  - assert ((b - ustar) * (b - ustar) <= (u - ustar) * (u - ustar)) by nra. rewrite !Rmult_assoc. apply Rmult_le_compat_l; lra.
  - rewrite !Rmult_assoc. apply Rmult_le_compat_l; [lra|]. pose proof (Rle_0_sqr (u - ustar)) as Q. unfold Rsqr in Q. lra.
Qed.
Theorem C85_straight_line n trials : (1 <= n)%nat -> trials <> [] ->
  exists r, nearestParam line (fun _ => d) (fun _ => v0) a b p n trials = Some r /\
    forall u, a <= u <= b -> dot (p -v (q +v r *v d)) (p -v (q +v r *v d)) <= dot (p -v (q +v u *v d)) (p -v (q +v u *v d)).
Proof.
  intros Hn Ht. destruct n as [|n]; [lia|]. destruct trials as [|t l]; [contradiction|]. unfold nearestParam.
  assert (N : forall t, exists r, nearNewton line (fun _ => d) (fun _ => v0) a b p (S n) t = Some r /\ forall u, a <= u <= b -> sqDist line p r <= sqDist line p u).
  { intros s. destruct (line_newton_all n s) as [E|E]; rewrite E; eexists; (split; [reflexivity|]); intros u Hu; rewrite (line_dist u).
    - rewrite Rmult_assoc. pose proof (Rle_0_sqr (u - ustar)) as Q. unfold Rsqr in Q. nra.
    - rewrite line_dist. pose proof (clamp_near u Hu). lra. }
  destruct (N t) as (r & -> & Hr). assert (B : exists r', nearBest line (fun _ => d) (fun _ => v0) a b p (S n) r l = Some r').
  { clear Hr Ht. revert r. induction l as [|s l IH]; intros r; cbn [nearBest]; [eauto|]. destruct (N s) as (w & -> & _). apply IH. }
  destruct B as (r' & B). exists r'. split; [exact B|]. apply nearBest_spec in B as (_ & B & _). intros u Hu. specialize (Hr u Hu). unfold sqDist, line in *. lra.
Qed.
End Line.
Print Assumptions C85_straight_line.
(** hypotheses: the diagonal of the plane *)
Example C85_line_example : 0 < dot (v := VS_prod VS_R VS_R) (1, 1) (1, 1).
Proof. cbn. lra. Qed.

(** *** C86: slices of the space-time fit *)
Definition luLaw (lu : list R -> nat -> option (list R -> list R)) : Prop :=
  forall kn p solve rhs, lu kn p = Some solve -> (length rhs + p + 1 = length kn)%nat -> length (solve rhs) = length rhs /\
    forall k, (k < length rhs)%nat -> spline (V := VS_R) kn p (solve rhs) (anchor kn p k) = nth k rhs 0.
Lemma uniform_length a b n p : length (uniformKnots a b n p) = (p + 1 + n + (p + 1))%nat.
Proof. unfold uniformKnots. rewrite !app_length, !repeat_length, map_length, seq_length. lia. Qed.
Theorem C86_slice_at_anchors_partial lu debug dom target rows data times ptimes deg s fit k :
  luLaw lu -> stNew dom target rows data times ptimes deg = Ok s -> target = (dom + 1)%nat -> (0 < rows)%nat ->
  stCompute lu debug s = Ok fit -> (k < length times)%nat ->
  exists load m, stSlice s fit (anchor (fst fit) deg k) = Ok (load, m) /\ load = nth k times 0 /\
    forall r c, (r < rows)%nat -> (c < target)%nat -> m r c = nth k data (fun _ _ => 0) r c.
Proof.
  intros Law N Tg Rw E Hk. unfold stNew in N. destruct (Nat.eqb (length data) 0); [discriminate|]. destruct (negb _); [discriminate|].
  destruct (negb _); [discriminate|]. injection N as <-. unfold stCompute in E. cbn [st_dom st_target st_rows st_data st_times st_ptimes st_deg] in E.
  destruct (debug && _); [discriminate|]. destruct (length times <=? deg)%nat eqn:G; [discriminate|]. apply Nat.leb_gt in G.
  destruct (Nat.eqb dom 1); [discriminate|]. set (kn := uniformKnots _ _ _ _) in E. destruct (lu kn deg) as [solve|] eqn:Lu; [|discriminate].
  injection E as <-. unfold stSlice. cbn [st_dom st_target st_rows st_data st_times st_ptimes st_deg fst snd].
  assert (Z : (target <? dom + 1)%nat = false) by (apply Nat.ltb_ge; lia). rewrite Z. do 2 eexists. split; [reflexivity|].
  assert (Main : forall j f, (forall lam, f lam = nth lam (solve (map (fun l => stRhs (mkST dom target rows data times ptimes deg) l j) (seq 0 (length times)))) 0) ->
    spline (V := VS_R) kn deg (map f (seq 0 (length times))) (anchor kn deg k) = stRhs (mkST dom target rows data times ptimes deg) k j).
  { intros j f Hf. set (rhs := map (fun l => stRhs (mkST dom target rows data times ptimes deg) l j) (seq 0 (length times))) in *.
    assert (Lr : length rhs = length times) by (unfold rhs; rewrite map_length, seq_length; reflexivity).
    destruct (Law kn deg solve rhs Lu) as [Ls I]; [unfold kn; rewrite uniform_length; lia|].
    rewrite (map_ext _ _ Hf). rewrite <- Lr, <- Ls. change (vec VS_R) with R. rewrite map_nth_seq. rewrite I by lia. unfold rhs.
    rewrite (nth_indep _ 0 (stRhs (mkST dom target rows data times ptimes deg) 0%nat j)) by (rewrite map_length, seq_length; exact Hk).
    rewrite (map_nth (fun l => stRhs (mkST dom target rows data times ptimes deg) l j)). rewrite seq_nth by exact Hk. reflexivity. }
  split.
  - rewrite (Main (target * rows)%nat).
    + unfold stRhs. cbn [st_target st_rows st_times]. rewrite Nat.ltb_irrefl. reflexivity.
    + intros lam. rewrite <- Tg, Nat.ltb_irrefl. reflexivity.
  - intros r c Hr Hc. rewrite (Main (c * rows + r)%nat).
    + unfold stRhs. cbn [st_target st_rows st_data]. assert (Lt : (c * rows + r <? target * rows)%nat = true) by (apply Nat.ltb_lt; nia).
      rewrite Lt. rewrite Nat.add_comm, Nat.mod_add, Nat.mod_small, Nat.div_add, Nat.div_small by lia. reflexivity.
    + intros lam. assert (Q : (c <? target)%nat = true) by (apply Nat.ltb_lt; exact Hc). rewrite Q. reflexivity.
Qed.
Print Assumptions C86_slice_at_anchors_partial.
(** a plane problem: two unknowns per control point on a surface; the load column does not exist *)
Theorem C86_plane_problem_refuted : exists s, stNew 2 2 1 [(fun _ _ => 0); (fun _ _ => 1); (fun _ _ => 0)] [0; 1; 0] [0; 1; 4] 2 = Ok s /\
  forall fit xi, stSlice s fit xi = Fail EUndef.
Proof. eexists. split; [reflexivity|]. intros. reflexivity. Qed.
Print Assumptions C86_plane_problem_refuted.
Definition ex86 : stfit := mkST 2 3 1 [(fun _ _ => 0); (fun _ _ => 1); (fun _ _ => 0)] [0; 1; 0] [0; 1; 4] 2.
Lemma ex86_knots : uniformKnots (minR [0; 1; 4]) (maxR [0; 1; 4]) 0 2 = kn4.
Proof. unfold uniformKnots, minR, maxR, kn4. cbn. rewrite (Rmin_left 0 1), (Rmin_left 0 4), (Rmax_right 0 1), (Rmax_right 1 4) by lra. reflexivity. Qed.
Theorem C86_at_parametric_times_refuted : exists s xi, stNew 2 3 1 [(fun _ _ => 0); (fun _ _ => 1); (fun _ _ => 0)] [0; 1; 0] [0; 1; 4] 2 = Ok s /\
  nth 1 (st_ptimes s) 0 = xi /\ forall lu debug fit load m, luLaw lu -> stCompute lu debug s = Ok fit -> stSlice s fit xi = Ok (load, m) -> load <> nth 1 (st_times s) 0.
Proof.
  exists ex86, 1. split; [reflexivity|]. split; [reflexivity|]. intros lu debug fit load m Law E S.
  unfold stCompute in E. cbn [ex86 st_dom st_target st_rows st_data st_times st_ptimes st_deg length Nat.eqb negb] in E. rewrite andb_false_r in E.
  cbn [Nat.leb Nat.sub Nat.add] in E. rewrite ex86_knots in E. destruct (lu kn4 2%nat) as [solve|] eqn:Lu; [|discriminate]. injection E as <-.
  destruct (Law kn4 2%nat solve [0; 1; 0] Lu ltac:(reflexivity)) as [L I].
  unfold stSlice in S. cbn [ex86 st_dom st_target st_rows st_times st_deg length Nat.ltb Nat.leb Nat.add Nat.mul fst snd seq map] in S. injection S as <- _.
  change (map (fun l => stRhs _ l _) [0%nat; 1%nat; 2%nat]) with [0; 1; 0].
  match goal with |- ?v <> _ => replace v with (spline (V := VS_R) kn4 2 (solve [0; 1; 0]) 1) end.
  - rewrite kn4_values; [cbn; lra|exact L|exact I].
  - f_equal. change [stRhs ex86 0 3; stRhs ex86 1 3; stRhs ex86 2 3] with [0; 1; 0]. cbn [length] in L. destruct (solve [0; 1; 0]) as [|a [|b [|c [|]]]]; try discriminate L. reflexivity.
Qed.
Print Assumptions C86_at_parametric_times_refuted.
Definition lu4 (kn : list R) (p : nat) : option (list R -> list R) :=
  if list_eq_dec Req_EM_T kn kn4 then if Nat.eqb p 2 then Some (fun r => [nth 0 r 0; 2 * nth 1 r 0 - nth 0 r 0 / 2 - nth 2 r 0 / 2; nth 2 r 0]) else None else None.
Lemma lu4_law : luLaw lu4.
Proof.
  intros kn p solve rhs H Lr. unfold lu4 in H. destruct (list_eq_dec Req_EM_T kn kn4) as [->|]; [|discriminate].
  destruct (Nat.eqb p 2) eqn:P; [|discriminate]. apply Nat.eqb_eq in P as ->. injection H as <-. cbn [kn4 length] in Lr.
  destruct rhs as [|a [|b [|c [|]]]]; cbn [length] in Lr; try lia. split; [reflexivity|]. destruct kn4_anchors as (A0 & A1 & A2).
  intros k Hk. cbn [length] in Hk. unfold spline, splineFrom. cbn [nth]. destruct k as [|[|[|]]]; [rewrite A0|rewrite A1|rewrite A2|lia].
  - destruct (kn4_basis 0 ltac:(lra)) as (P & Q & S). rewrite P, Q, S. cbn. lra.
  - destruct (kn4_basis 2 ltac:(lra)) as (P & Q & S). rewrite P, Q, S. cbn. lra.
  - destruct kn4_end as (P & Q & S). rewrite P, Q, S. cbn. lra.
Qed.
Example C86_example : luLaw lu4 /\ exists fit, stCompute lu4 true ex86 = Ok fit.
Proof.
  split; [exact lu4_law|]. unfold stCompute. cbn [ex86 st_dom st_target st_rows st_data st_times st_ptimes st_deg length Nat.eqb negb andb Nat.leb Nat.sub Nat.add].
  rewrite ex86_knots. unfold lu4. destruct (list_eq_dec Req_EM_T kn4 kn4); [|congruence]. cbn [Nat.eqb]. eexists. reflexivity.
Qed.

(** *** C87: points added to the space-time fitter *)
Lemma sinsert_perm x l : Permutation (x :: l) (sinsert x l).
Proof. induction l as [|y l IH]; [auto|]. cbn. destruct (Rleb x y); [auto|]. rewrite perm_swap. auto. Qed.
Lemma ssort_perm l : Permutation l (ssort l).
Proof. induction l as [|x l IH]; [constructor|]. cbn. rewrite <- sinsert_perm. auto. Qed.
Lemma fold_min_spec l : forall x, In (fold_left Rmin l x) (x :: l) /\ forall y, In y (x :: l) -> fold_left Rmin l x <= y.
Proof.
  induction l as [|a l IH]; intros x; [cbn; intuition lra|]. cbn [fold_left]. destruct (IH (Rmin x a)) as [A B]. split.
  - destruct A as [A|A]; [|cbn; auto]. rewrite <- A. unfold Rmin. destruct (Rle_dec x a); cbn; auto.
  - pose proof (B (Rmin x a) (or_introl eq_refl)). pose proof (Rmin_l x a). pose proof (Rmin_r x a). intros y [<-|[<-|I]]; [lra|lra|apply B; cbn; auto].
Qed.
Lemma fold_max_spec l : forall x, In (fold_left Rmax l x) (x :: l) /\ forall y, In y (x :: l) -> y <= fold_left Rmax l x.
Proof.
  induction l as [|a l IH]; intros x; [cbn; intuition lra|]. cbn [fold_left]. destruct (IH (Rmax x a)) as [A B]. split.
  - destruct A as [A|A]; [|cbn; auto]. rewrite <- A. unfold Rmax. destruct (Rle_dec x a); cbn; auto.
  - pose proof (B (Rmax x a) (or_introl eq_refl)). pose proof (Rmax_l x a). pose proof (Rmax_r x a). intros y [<-|[<-|I]]; [lra|lra|apply B; cbn; auto].
Qed.
Lemma minR_spec l : l <> [] -> In (minR l) l /\ forall y, In y l -> minR l <= y.
Proof. destruct l as [|x l]; [congruence|]. intros _. apply fold_min_spec. Qed.
Lemma maxR_spec l : l <> [] -> In (maxR l) l /\ forall y, In y l -> y <= maxR l.
Proof. destruct l as [|x l]; [congruence|]. intros _. apply fold_max_spec. Qed.
Lemma added_in l x y : In y (ssort (l ++ [x])) <-> In y l \/ y = x.
Proof.
  split; intros H.
  - apply (Permutation_in y (Permutation_sym (ssort_perm _))), in_app_iff in H. cbn in H. intuition.
  - apply (Permutation_in y (ssort_perm _)), in_app_iff. cbn. intuition.
Qed.
Lemma added_ne l (x : R) : ssort (l ++ [x]) <> [].
Proof. intros H. assert (In x []) as []. rewrite <- H. apply added_in. auto. Qed.
(** a point inside the range of the parametric times has no effect at all on the fit *)
Theorem C87_added_point_ignored_partial lu debug s solution time ptime :
  st_ptimes s <> [] -> (exists a, In a (st_ptimes s) /\ a <= ptime) -> (exists b, In b (st_ptimes s) /\ ptime <= b) ->
  stCompute lu debug (stAdd solution time ptime s) = stCompute lu debug s.
Proof.
  intros N (a & A1 & A2) (b & B1 & B2). destruct (minR_spec _ N) as [M1 M2]. destruct (maxR_spec _ N) as [X1 X2].
  destruct (minR_spec _ (added_ne (st_ptimes s) ptime)) as [M3 M4]. destruct (maxR_spec _ (added_ne (st_ptimes s) ptime)) as [X3 X4].
  assert (Em : minR (ssort (st_ptimes s ++ [ptime])) = minR (st_ptimes s)).
  { apply Rle_antisym; [apply M4, added_in; auto|]. apply added_in in M3 as [M3|M3]; [auto|]. rewrite M3. specialize (M2 _ A1). lra. }
  assert (Ex : maxR (ssort (st_ptimes s ++ [ptime])) = maxR (st_ptimes s)).
  { apply Rle_antisym; [|apply X4, added_in; auto]. apply added_in in X3 as [X3|X3]; [auto|]. rewrite X3. specialize (X2 _ B1). lra. }
  unfold stCompute, stAdd. cbn [st_dom st_target st_rows st_data st_times st_ptimes st_deg]. rewrite Em, Ex. reflexivity.
Qed.
Print Assumptions C87_added_point_ignored_partial.
(** two different solutions added at the same time give the same object; neither is used *)
Theorem C87_added_point_used_refuted : exists s solution1 solution2 time1 time2 ptime,
  stNew 2 3 1 [(fun _ _ => 0); (fun _ _ => 1); (fun _ _ => 0)] [0; 1; 0] [0; 1; 4] 2 = Ok s /\ solution1 0%nat 0%nat <> solution2 0%nat 0%nat /\ time1 <> time2 /\
  forall lu debug, stCompute lu debug (stAdd solution1 time1 ptime s) = stCompute lu debug (stAdd solution2 time2 ptime s) /\
    stCompute lu debug (stAdd solution1 time1 ptime s) = stCompute lu debug s.
Proof.
  exists ex86, (fun _ _ => 5), (fun _ _ => 6), 7, 8, 2. split; [reflexivity|]. split; [lra|]. split; [lra|]. intros lu debug. split; [reflexivity|].
  apply C87_added_point_ignored_partial; [discriminate|exists 0; split; [cbn; auto|lra]|exists 4; split; [cbn; auto|lra]].
Qed.
Print Assumptions C87_added_point_used_refuted.
