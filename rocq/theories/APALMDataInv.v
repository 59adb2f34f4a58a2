(** Histories of gsAPALMData calls and the invariant that holds after each of them. *)
From Verif Require Import Prelude APALMData APALMDataProofs.
Local Open Scope R_scope.

(** ** Neighbours in a sorted list *)
Definition Adj (l : list R) (lo hi : R) : Prop := exists pre post, l = pre ++ lo :: hi :: post.

Lemma consecutive_Adj l a b : In (a, b) (consecutive l) -> Adj l a b.
Proof.
  induction l as [|x l IH]; [intros []|].
  destruct l as [|y l]; [intros []|].
  cbn [consecutive]. intros [E|Hin].
  - injection E as -> ->. exists [], l. reflexivity.
  - destruct (IH Hin) as (p & q & E). exists (x :: p), q. rewrite E. reflexivity.
Qed.

Lemma consecutive_app_in P l Q e : In e (consecutive l) -> In e (consecutive (P ++ l ++ Q)).
Proof.
  intros H. induction P as [|x P IH].
  - cbn [app]. revert H. induction l as [|x l IHl]; [intros []|].
    destruct l as [|y l]; [intros []|]. cbn [consecutive app]. intros [->|H]; [left; auto|].
    right. apply IHl, H.
  - cbn [app]. destruct (P ++ l ++ Q) as [|y r] eqn:E; [destruct IH|].
    cbn [consecutive]. right. exact IH.
Qed.

Lemma consecutive_fst l : map fst (consecutive l) = removelast l.
Proof.
  induction l as [|x l IH]; auto. destruct l as [|y l]; auto.
  change (consecutive (x :: y :: l)) with ((x, y) :: consecutive (y :: l)).
  cbn [map fst]. rewrite IH. reflexivity.
Qed.

Lemma consecutive_length l : length (consecutive l) = (length l - 1)%nat.
Proof.
  induction l as [|x l IH]; auto. destruct l as [|y l]; auto.
  change (consecutive (x :: y :: l)) with ((x, y) :: consecutive (y :: l)).
  cbn [length]. rewrite IH. cbn. lia.
Qed.

Lemma consecutive_nth l k : (S k < length l)%nat ->
  nth k (consecutive l) (0, 0) = (nth k l 0, nth (S k) l 0).
Proof.
  revert k. induction l as [|x l IH]; intros k H; [cbn in H; lia|].
  destruct l as [|y l]; [cbn in H; lia|].
  change (consecutive (x :: y :: l)) with ((x, y) :: consecutive (y :: l)).
  destruct k as [|k]; [reflexivity|].
  cbn [nth]. rewrite IH by (cbn in *; lia). reflexivity.
Qed.

Lemma Adj_in l lo hi : Adj l lo hi -> In lo l /\ In hi l.
Proof.
  intros (p & q & ->). split; apply in_or_app; right; [left|right; left]; auto.
Qed.
Lemma Adj_lt l lo hi : incr l -> Adj l lo hi -> lo < hi.
Proof.
  intros H (p & q & ->). apply incr_app in H as (_ & H & _). apply incr_cons in H as [_ H].
  apply H. left; auto.
Qed.
Lemma Adj_none_between l lo hi x : incr l -> Adj l lo hi -> In x l -> x <= lo \/ hi <= x.
Proof.
  intros H (p & q & ->) Hin. apply incr_app in H as (H1 & H2 & H3).
  apply incr_cons in H2 as [H2 H4]. apply incr_cons in H2 as [H2 H5].
  apply in_app_or in Hin as [Hin|[<-|[<-|Hin]]].
  - left. specialize (H3 x lo Hin (or_introl eq_refl)). lra.
  - left; lra.
  - right; lra.
  - right. specialize (H5 x Hin). lra.
Qed.
Lemma Adj_fun l lo hi hi' : incr l -> Adj l lo hi -> Adj l lo hi' -> hi = hi'.
Proof.
  intros H A B. pose proof (Adj_lt _ _ _ H A). pose proof (Adj_lt _ _ _ H B).
  destruct (Adj_none_between _ _ _ hi' H A (proj2 (Adj_in _ _ _ B))); [lra|].
  destruct (Adj_none_between _ _ _ hi H B (proj2 (Adj_in _ _ _ A))); lra.
Qed.
Lemma Adj_app_r l q lo hi : Adj l lo hi -> Adj (l ++ q) lo hi.
Proof. intros (p & r & ->). exists p, (r ++ q). rewrite <- app_assoc. reflexivity. Qed.
Lemma Adj_app_l l q lo hi : Adj l lo hi -> Adj (q ++ l) lo hi.
Proof. intros (p & r & ->). exists (q ++ p), r. rewrite <- app_assoc. reflexivity. Qed.

Lemma Adj_split P a b Q lo hi :
  Adj (P ++ a :: b :: Q) lo hi -> lo <> a -> Adj (P ++ [a]) lo hi \/ Adj (b :: Q) lo hi.
Proof.
  intros (p & r & E) Hn. revert p E. induction P as [|x P IH]; intros p E.
  - cbn in E. destruct p as [|y p]; cbn in E.
    + injection E as -> _ _. congruence.
    + injection E as -> E. right. exists p, r. exact E.
  - destruct p as [|y p]; cbn in E.
    + injection E as -> E. left. destruct P as [|z P]; cbn in E; injection E as -> E.
      * exists [], []. reflexivity.
      * exists [], (P ++ [a]). reflexivity.
    + injection E as -> E. destruct (IH p E) as [H|H]; auto.
      left. cbn. apply (Adj_app_l _ [y]). exact H.
Qed.

Lemma Adj_splice P a b Q M lo hi :
  Adj (P ++ a :: b :: Q) lo hi -> lo <> a -> Adj ((P ++ [a]) ++ M ++ b :: Q) lo hi.
Proof.
  intros H Hn. destruct (Adj_split _ _ _ _ _ _ H Hn) as [A|A].
  - apply Adj_app_r. auto.
  - do 2 apply Adj_app_l. auto.
Qed.

Lemma Adj_children P a b Q M lo hi :
  In (lo, hi) (consecutive (a :: M ++ [b])) -> Adj ((P ++ [a]) ++ M ++ b :: Q) lo hi.
Proof.
  intros H. apply consecutive_Adj.
  replace ((P ++ [a]) ++ M ++ b :: Q) with (P ++ (a :: M ++ [b]) ++ Q)
    by (rewrite <- !app_assoc; cbn; rewrite <- app_assoc; reflexivity).
  apply consecutive_app_in. exact H.
Qed.

(** ** the queued sub-segments are neighbouring pairs *)
Lemma firstn_skipn_map_nth {A B} (f : A -> B) (l : list A) (d : A) i n :
  (i + n <= length l)%nat ->
  map (fun k => f (nth k l d)) (seq i n) = map f (firstn n (skipn i l)).
Proof.
  revert i. induction n as [|n IH]; intros i H; [reflexivity|].
  cbn [seq map]. rewrite IH by lia.
  assert (E : skipn i l = nth i l d :: skipn (S i) l).
  { clear IH. revert i H. induction l as [|x l IHl]; intros i H; [cbn in H; lia|].
    destruct i; [reflexivity|]. cbn [skipn nth]. rewrite IHl by (cbn in H; lia). reflexivity. }
  rewrite E. reflexivity.
Qed.

Lemma newSegments_eq maxLevel tol xs level le ue Dt :
  (2 <= length xs)%nat ->
  newSegments maxLevel tol xs level le ue Dt =
  if (level <? maxLevel)%Z then
    map (fun e => (fst e, snd e, (level + 1)%Z))
        (match Rltb (le / Dt) tol, Rltb (ue / Dt) tol with
         | false, false => consecutive xs
         | true, false => [last (consecutive xs) (0, 0)]
         | false, true => removelast (consecutive xs)
         | true, true => []
         end)
  else [].
Proof.
  intros H. unfold newSegments. destruct (level <? maxLevel)%Z; auto.
  set (n := length xs) in *.
  assert (G : forall i m, (i + m <= n - 1)%nat ->
     map (fun k => (nth (k - 1) xs 0, nth k xs 0, (level + 1)%Z)) (seq (S i) m) =
     map (fun e => (fst e, snd e, (level + 1)%Z)) (firstn m (skipn i (consecutive xs)))).
  { intros i m Him.
    rewrite <- (firstn_skipn_map_nth (fun e => (fst e, snd e, (level + 1)%Z)) (consecutive xs) (0, 0))
      by (rewrite consecutive_length; fold n; lia).
    rewrite <- seq_shift, map_map. apply map_ext_in. intros k Hk. apply in_seq in Hk.
    rewrite consecutive_nth by (fold n; lia). cbn [fst snd].
    replace (S k - 1)%nat with k by lia. reflexivity. }
  pose proof (consecutive_length xs) as Hc. fold n in Hc.
  assert (Hne : consecutive xs <> []) by (intros E; rewrite E in Hc; cbn in Hc; lia).
  destruct (Rltb (le / Dt) tol), (Rltb (ue / Dt) tol).
  - rewrite Nat.sub_diag. reflexivity.
  - replace (n - (n - 1))%nat with 1%nat by lia.
    replace (n - 1)%nat with (S (n - 2)) by lia.
    rewrite G by lia. f_equal.
    pose proof (app_removelast_last (0, 0) Hne) as E. rewrite E at 1.
    assert (Hr : length (removelast (consecutive xs)) = (n - 2)%nat).
    { apply (f_equal (@length _)) in E. rewrite app_length in E. cbn in E. lia. }
    rewrite <- Hr, skipn_app, skipn_all, Nat.sub_diag. reflexivity.
  - change 1%nat with (S 0). rewrite G by lia. f_equal. cbn [skipn].
    pose proof (app_removelast_last (0, 0) Hne) as E. rewrite E at 1.
    assert (Hr : length (removelast (consecutive xs)) = (n - 2)%nat).
    { apply (f_equal (@length _)) in E. rewrite app_length in E. cbn in E. lia. }
    replace (n - 1 - 1)%nat with (length (removelast (consecutive xs)) + 0)%nat by lia.
    rewrite firstn_app_2. cbn. apply app_nil_r.
  - change 1%nat with (S 0). rewrite G by lia. f_equal. cbn [skipn].
    apply firstn_all2. rewrite Hc. lia.
Qed.

Section Inv.
Context {sol : Type}.
Notation data := (data sol).

Lemma NoDup_app_l {A} (l l' : list A) : NoDup (l ++ l') -> NoDup l.
Proof.
  induction l as [|x l IH]; cbn; intros H; constructor; inversion H; subst; auto.
  intros Hin. apply H2, in_or_app; auto.
Qed.
Lemma filter_perm_gen {A} (f : A -> bool) (l l' : list A) :
  Permutation l l' -> Permutation (filter f l) (filter f l').
Proof.
  intros P. induction P as [|x l l' P IH|x y l|l l' l'' P1 IH1 P2 IH2]; cbn; auto.
  - destruct (f x); auto.
  - destruct (f x), (f y); auto. constructor.
  - etransitivity; eauto.
Qed.

(** waiting or active segments *)
Definition entries (d : data) : list segment := d_queue d ++ map snd (d_jobs d).
(** correction segments have level >= 1; level 0 marks "continue from this point" *)
Definition isSeg (e : segment) : bool := (1 <=? seg_lev e)%Z.
Definition filter_perm := filter_perm_gen isSeg.
Definition segs (d : data) : list segment := filter isSeg (entries d).

Definition entry_ok (maxLevel : Z) (xi : list R) (e : segment) : Prop :=
  (seg_lev e = 0%Z /\ seg_lo e = seg_hi e /\ In (seg_lo e) xi) \/
  ((1 <= seg_lev e <= Z.max 1 maxLevel)%Z /\ Adj xi (seg_lo e) (seg_hi e)).

Record Inv (d : data) (c : list point) : Prop := mkInv {
  inv_rep : Rep d c;
  inv_ne : c <> [];
  inv_x0 : hd 0 (d_xi d) = 0;
  inv_ximap : (forall p, In p c -> tval (d_ximap d) (pt p) = px p) /\
              (forall t, ~ In t (map pt c) -> tval (d_ximap d) t = 0);
  inv_init : d_init d = true;
  inv_opt : d_maxLevel d = d_optMaxLevel d /\ d_tol d = d_optTol d;
  inv_entries : Forall (entry_ok (d_maxLevel d) (d_xi d)) (entries d);
  inv_nodup : NoDup (map seg_lo (segs d));
  inv_jobs : NoDup (map fst (d_jobs d));
  inv_ids : Forall (fun e => (fst e < d_ID d)%nat) (d_jobs d);
  inv_levels : Forall (fun p => (0 <= pl p <= Z.max 1 (d_maxLevel d))%Z) c
}.

(** ** Calls of a client *)
Inductive call :=
| CPop                                            (* pop() *)
| CComplete (id : nat) (ds : list R) (ss : list sol) (up lo : R)
    (* submit(ID,...) followed by finishJob(ID), as gsAPALM.hpp l.333-334, 466-467, 676-677, 924-925 *)
| CFinish (id : nat)                              (* finishJob(ID), gsAPALM.hpp l.641, 878 *)
| CAppendData (t : R) (s : sol) (prio : bool)     (* appendData *)
| CAppendPoint (prio : bool)                      (* appendPoint *)
| CSetLength (r : R)                              (* setLength *)
| CInit                                           (* init() *)
| CJobQuery (id : nat)                            (* jobLevel; getReferenceByID; jobTimes *)
| CStartQuery (id : nat)                          (* jobLevel; jobStartTime *)
| CFlat (level : Z)                               (* getFlatSolution(level) *)
| CRefTime (t : R).                               (* getReferenceByTime *)

Inductive out := ONone | OPop (id : nat) (dt : R) (start prev : sol).

Definition exec (d : data) (c : call) : result (data * out) :=
  match c with
  | CPop => do (d', o) <- pop d;
            let '(id, dt, start, prev) := o in Ok (d', OPop id dt start prev)
  | CComplete id ds ss up lo => do d' <- submit d id ds ss up lo; Ok (finishJob d' id, ONone)
  | CFinish id => Ok (finishJob d id, ONone)
  | CAppendData t s p => do d' <- appendData d t s p; Ok (d', ONone)
  | CAppendPoint p => do d' <- appendPoint d p; Ok (d', ONone)
  | CSetLength r => Ok (setLength d r, ONone)
  | CInit => do d' <- init d; Ok (d', ONone)
  | CJobQuery id => Ok (fst (jobTimes (fst (getReferenceByID (fst (jobLevel d id)) id)) id), ONone)
  | CStartQuery id => Ok (fst (jobStartTime (fst (jobLevel d id)) id), ONone)
  | CFlat l => Ok (fst (getFlatSolution d l), ONone)
  | CRefTime t => Ok (fst (getReferenceByTime d t), ONone)
  end.

(** what a client has to respect: complete/query only active correction/known jobs, with
    positive distances; re-initialise only when no job is active *)
Definition allowed (d : data) (c : call) : Prop :=
  match c with
  | CComplete id ds ss up lo =>
      (exists e, nfind id (d_jobs d) = Some e /\ (1 <= seg_lev e)%Z) /\
      length ds = S (length ss) /\ Forall (fun x => 0 < x) ds
  | CInit => d_jobs d = []
  | CJobQuery id | CStartQuery id => exists e, nfind id (d_jobs d) = Some e
  | _ => True
  end.

Inductive history (d : data) : list (call * out) -> data -> Prop :=
| h_nil : history d [] d
| h_snoc h d1 c o d2 :
    history d h d1 -> allowed d1 c -> exec d1 c = Ok (d2, o) -> history d (h ++ [(c, o)]) d2.

(** two ways to create a data set: from a computed curve (gsAPALM.hpp l.202-204) or
    from a start point with time 0 (gsAPALM.hpp l.559-560, 660, 847-848, 898) *)
Inductive created (ml : Z) (tol : R) : data -> Prop :=
| cr_data times ss d : incr times -> length times = length ss ->
    initWith (newData ml tol) times ss = Ok d -> created ml tol d
| cr_start s prio d : addStartPoint (newData ml tol) 0 s prio = Ok d -> created ml tol d.

Definition reachable (d : data) : Prop :=
  exists ml tol d0 h, created ml tol d0 /\ history d0 h d.

(** ** jobs map *)
Lemma nfind_split (jobs : list (nat * segment)) id e :
  NoDup (map fst jobs) -> nfind id jobs = Some e ->
  exists j1 j2, jobs = j1 ++ (id, e) :: j2 /\ nerase id jobs = j1 ++ j2.
Proof.
  induction jobs as [|[k v] jobs IH]; cbn [mfind map]; intros ND H; [discriminate|].
  inversion ND as [|? ? Hn ND']; subst. destruct (Nat.eqb id k) eqn:E.
  - apply Nat.eqb_eq in E as <-. injection H as ->. exists [], jobs. split; auto.
    unfold merase. cbn [filter fst]. rewrite Nat.eqb_refl. cbn [negb app].
    clear -Hn. induction jobs as [|[k v] jobs IH]; auto. cbn in *.
    destruct (Nat.eqb id k) eqn:E; [apply Nat.eqb_eq in E; subst; tauto|].
    cbn. rewrite IH by tauto. reflexivity.
  - destruct (IH ND' H) as (j1 & j2 & E1 & E2). exists ((k, v) :: j1), j2. split.
    + rewrite E1. reflexivity.
    + unfold merase in *. cbn [filter fst]. rewrite E. cbn. rewrite E2. reflexivity.
Qed.

Lemma nerase_incl (jobs : list (nat * segment)) id e : In e (nerase id jobs) -> In e jobs.
Proof. unfold merase. rewrite filter_In. tauto. Qed.
Lemma nerase_nodup (jobs : list (nat * segment)) id :
  NoDup (map fst jobs) -> NoDup (map fst (nerase id jobs)).
Proof.
  induction jobs as [|[k v] jobs IH]; cbn; auto. intros H. inversion H as [|? ? Hn ND]; subst.
  destruct (negb _); cbn; auto. constructor; auto. intros Hin. apply Hn.
  apply in_map_iff in Hin as (x & <- & Hx). apply in_map. eapply nerase_incl; eauto.
Qed.

Lemma filter_incl_nodup {A} (f : A -> R) (P Q : A -> bool) (l : list A) :
  NoDup (map f (filter P l)) -> NoDup (map f (filter P (filter Q l))).
Proof.
  induction l as [|x l IH]; cbn; auto. intros H.
  destruct (P x) eqn:Ep, (Q x) eqn:Eq; cbn; rewrite ?Ep; cbn.
  - cbn in H. inversion H as [|? ? Hn ND]; subst. constructor; auto. intros Hin. apply Hn.
    apply in_map_iff in Hin as (y & <- & Hy). apply in_map.
    apply filter_In in Hy as [Hy Hp]. apply filter_In in Hy as [Hy _]. apply filter_In; auto.
  - cbn in H. inversion H; subst. auto.
  - auto.
  - auto.
Qed.

Lemma map_filter_jobs (jobs : list (nat * segment)) id :
  exists l, map snd (nerase id jobs) = l /\ incl l (map snd jobs).
Proof.
  eexists; split; [reflexivity|]. intros x Hx. apply in_map_iff in Hx as (y & <- & Hy).
  apply in_map. eapply nerase_incl; eauto.
Qed.

(** erasing a job keeps everything *)
Lemma segs_erase_nodup (q : list segment) (jobs : list (nat * segment)) id :
  NoDup (map fst jobs) ->
  NoDup (map seg_lo (filter isSeg (q ++ map snd jobs))) ->
  NoDup (map seg_lo (filter isSeg (q ++ map snd (nerase id jobs)))).
Proof.
  intros ND. destruct (nfind id jobs) as [e|] eqn:E.
  - destruct (nfind_split _ _ _ ND E) as (j1 & j2 & E1 & E2). rewrite E2, E1.
    rewrite !map_app. cbn [map snd]. rewrite !filter_app. cbn [filter].
    rewrite !map_app. destruct (isSeg e); cbn [map]; auto.
    rewrite !app_assoc. apply NoDup_remove_1.
  - replace (nerase id jobs) with jobs; auto.
    clear -E. induction jobs as [|[k v] jobs IH]; auto. cbn in E. unfold merase in *.
    cbn [filter fst]. destruct (Nat.eqb id k); [discriminate|]. cbn. rewrite <- IH; auto.
Qed.

Lemma nset_fresh (jobs : list (nat * segment)) id e :
  Forall (fun x => (fst x < id)%nat) jobs -> nset id e jobs = jobs ++ [(id, e)].
Proof.
  intros H. rewrite <- (app_nil_r jobs) at 1. apply mset_middle.
  - apply Nat.eqb_eq.
  - apply Nat.ltb_irrefl.
  - intros a b Hab. apply Nat.ltb_lt in Hab. apply Nat.ltb_ge. lia.
  - intros x Hx. rewrite Forall_forall in H. apply Nat.ltb_lt, H, Hx.
  - intros x [].
Qed.

(** ** the invariant after creation *)
Lemma removelast_incl {A} (l : list A) : incl (removelast l) l.
Proof.
  induction l as [|x l IH]; [intros y []|]. destruct l as [|z l]; [intros y []|].
  intros y [->|H]; [left; auto|right; apply IH, H].
Qed.
Lemma NoDup_removelast {A} (l : list A) : NoDup l -> NoDup (removelast l).
Proof.
  induction l as [|x l IH]; intros H; [constructor|]. destruct l as [|z l]; [constructor|].
  inversion H; subst. change (removelast (x :: z :: l)) with (x :: removelast (z :: l)).
  constructor; auto. intros Hin. apply H2. apply (removelast_incl (z :: l)), Hin.
Qed.

Lemma tval_ximap (c : list (@point sol)) :
  incr (map pt c) ->
  (forall p, In p c -> tval (map (fun p => (pt p, px p)) c) (pt p) = px p) /\
  (forall t, ~ In t (map pt c) -> tval (map (fun p => (pt p, px p)) c) t = 0).
Proof.
  intros Hi. split.
  - intros p Hp. unfold tval, mread.
    assert (E : rfind (pt p) (map (fun p => (pt p, px p)) c) = Some (px p)).
    { apply (mfind_NoDup _ Reqb_true).
      - rewrite map_map. cbn. apply incr_NoDup. auto.
      - apply (in_map (fun p => (pt p, px p)) c p). auto. }
    rewrite E. reflexivity.
  - intros t Ht. unfold tval, mread.
    assert (E : rfind t (map (fun p => (pt p, px p)) c) = None).
    { apply (mfind_none Reqb Rltb Reqb_true). rewrite map_map. exact Ht. }
    rewrite E. reflexivity.
Qed.

Definition RepK (d : data) (c : list point) : Prop :=
  d_xi d = map px c /\ d_t d = map pt c /\ d_sols d = map (fun p => (px p, ps p)) c /\
  d_prevs d = map (fun p => (px p, pp p)) c /\ d_levels d = map (fun p => (px p, pl p)) c /\
  incr (map px c) /\ incr (map pt c).

Lemma init_inv d c :
  RepK d c -> c <> [] -> hd 0 (d_xi d) = 0 -> d_jobs d = [] ->
  Forall (fun p => (0 <= pl p <= Z.max 1 (d_optMaxLevel d))%Z) c ->
  exists d', init d = Ok d' /\ Inv d' c /\ d_optMaxLevel d' = d_optMaxLevel d /\ d_optTol d' = d_optTol d /\
    d_ID d' = d_ID d /\ d_dt d' = d_dt d /\ d_jobs d' = [] /\
    d_queue d' = map (fun e => (fst e, snd e, 1%Z)) (consecutive (map px c)).
Proof.
  intros HR Hne Hx0 Hj Hl. pose proof HR as (R1&R2&R3&R4&R5&R6&R7).
  unfold init. cbn [d_xi applyOptions with_opts]. rewrite R1.
  destruct (map px c) as [|x0 xr] eqn:Ex; [destruct c; [congruence|discriminate]|].
  set (d1 := with_queue _ _).
  rewrite (buildMap_ok d1 c); [|unfold d1; cbn; congruence..|rewrite Ex; auto|auto].
  cbn [rbind]. eexists. split; [reflexivity|].
  split; [|repeat split; auto].
  unfold d1. constructor.
  - unfold Rep. cbn. rewrite Ex. repeat split; auto; try congruence.
    intros p Hp. apply tval_built; [rewrite Ex|]; auto.
  - auto.
  - auto.
  - cbn. apply tval_ximap; auto.
  - reflexivity.
  - split; reflexivity.
  - unfold entries. cbn [d_queue d_jobs with_init with_maps with_queue applyOptions with_opts d_maxLevel d_xi].
    rewrite Hj. cbn [map]. rewrite app_nil_r. rewrite Forall_forall. intros e He.
    apply in_map_iff in He as ([u v] & <- & He). right. cbn. split; [lia|].
    rewrite R1. apply consecutive_Adj in He. exact He.
  - unfold segs, entries. cbn [d_queue d_jobs with_init with_maps with_queue applyOptions with_opts].
    rewrite Hj. cbn [map]. rewrite app_nil_r.
    assert (E : forall l, filter isSeg (map (fun e : R * R => (fst e, snd e, 1%Z)) l) =
                map (fun e => (fst e, snd e, 1%Z)) l).
    { intros l. induction l as [|[u v] l IHl]; cbn; auto. f_equal. exact IHl. }
    rewrite E, map_map. change (map (fun x : R * R => seg_lo (fst x, snd x, 1%Z))) with (map (@fst R R)).
    rewrite consecutive_fst. apply NoDup_removelast, incr_NoDup. auto.
  - cbn. rewrite Hj. constructor.
  - cbn. rewrite Hj. constructor.
  - cbn. auto.
Qed.

Lemma sortedb_incr l : incr l -> sortedb l = true.
Proof.
  induction l as [|x l IH]; auto. intros H. apply incr_cons in H as [H1 H2].
  destruct l as [|y l]; auto. cbn [sortedb]. apply andb_true_iff. split.
  - apply Rleb_true. specialize (H2 y (or_introl eq_refl)). lra.
  - apply IH, H1.
Qed.

Lemma setDataLoop_ok : forall xs xprev ts ss prev A P L,
  length xs = length ts -> length xs = length ss ->
  rfind xprev A = Some prev ->
  incr (map fst A ++ xs) -> map fst P = map fst A -> map fst L = map fst A ->
  @setDataLoop sol xprev xs ss (A, P, L) =
  Ok (A ++ map (fun q => (px q, ps q)) (newPoints 0 prev xs ts ss),
      P ++ map (fun q => (px q, pp q)) (newPoints 0 prev xs ts ss),
      L ++ map (fun q => (px q, pl q)) (newPoints 0 prev xs ts ss)).
Proof.
  induction xs as [|x xs IH]; intros xprev ts ss prev A P L L1 L2 Hf Hi HP HL.
  - destruct ts, ss; try discriminate. cbn. rewrite !app_nil_r. reflexivity.
  - destruct ts as [|t ts]; [discriminate|]. destruct ss as [|s ss]; [discriminate|].
    cbn [setDataLoop]. pose proof Hi as Hi0. apply incr_app in Hi as (I1 & I2 & I3).
    assert (Hlt : forall y, In y (map fst A) -> y < x) by (intros y Hy; apply I3; auto; left; auto).
    assert (Hnin : ~ In x (map fst A)) by (intros H; specialize (Hlt x H); lra).
    assert (EA : rinsert x s A = A ++ [(x, s)]).
    { rewrite rinsert_new by auto. rewrite <- (app_nil_r A) at 1. apply rset_middle; auto. intros y []. }
    assert (EL : rinsert x 0%Z L = L ++ [(x, 0%Z)]).
    { rewrite rinsert_new by (rewrite HL; auto). rewrite <- (app_nil_r L) at 1.
      apply rset_middle; [rewrite HL; auto|intros y []]. }
    rewrite EA, EL. unfold deref.
    assert (Ef : rfind xprev (A ++ [(x, s)]) = Some prev).
    { clear -Hf. induction A as [|[k v] A IHA]; cbn in *; [discriminate|]. destruct (Reqb xprev k); auto. }
    rewrite Ef. cbn [rbind].
    assert (EP : rinsert x prev P = P ++ [(x, prev)]).
    { rewrite rinsert_new by (rewrite HP; auto). rewrite <- (app_nil_r P) at 1.
      apply rset_middle; [rewrite HP; auto|intros y []]. }
    rewrite EP. rewrite (IH x ts ss s); auto.
    + cbn [newPoints map px ps pp pl]. rewrite <- !app_assoc. reflexivity.
    + clear -Hnin. induction A as [|[k v] A IHA]; cbn in *; [rewrite Reqb_refl; auto|].
      destruct (Reqb x k) eqn:E; [apply Reqb_true in E; subst; tauto|]. apply IHA. tauto.
    + rewrite map_app, <- app_assoc. exact Hi0.
    + rewrite !map_app, HP. reflexivity.
    + rewrite !map_app, HL. reflexivity.
Qed.

Lemma transform01_ok times : incr times -> (2 <= length times)%nat ->
  exists xs, transform01 times = Ok xs /\ incr xs /\ length xs = length times /\ hd 0 xs = 0.
Proof.
  intros Hi Hl. destruct times as [|a [|b r]]; cbn in Hl; try lia.
  unfold transform01. set (z := last (a :: b :: r) 0).
  assert (Hz : a < z).
  { apply incr_cons in Hi as [_ Hi]. apply Hi. unfold z.
    change (last (a :: b :: r) 0) with (last (b :: r) 0).
    destruct (exists_last (l:=b::r)) as (l' & y & E); [discriminate|].
    rewrite E, last_last. apply in_or_app; right; left; auto. }
  assert (Reqb (z - a) 0 = false) as -> by (apply Reqb_false; lra).
  eexists. split; [reflexivity|]. split; [|split; [apply map_length|cbn; unfold Rdiv; ring]].
  apply incr_map_mono; auto. intros u v _ _ Huv. unfold Rdiv.
  apply Rmult_lt_compat_r; [apply Rinv_0_lt_compat|]; lra.
Qed.

Lemma newPoints_pp level : forall xs (p : sol) ts ss, length xs = length ts -> length xs = length ss ->
  map pp (newPoints level p xs ts ss) = removelast (p :: ss).
Proof.
  induction xs as [|x xs IH]; intros p ts ss H1 H2; destruct ts, ss; try discriminate; auto.
  cbn [newPoints map pp]. rewrite IH by (cbn in *; lia). reflexivity.
Qed.

(** the curve that is created from given times and solutions *)
Lemma created_data_inv ml tol times ss (d : data) :
  incr times -> length times = length ss -> initWith (newData ml tol) times ss = Ok d ->
  exists c, Inv d c /\ map pt c = times /\ map ps c = ss /\ Forall (fun p => pl p = 0%Z) c /\
    d_optMaxLevel d = ml /\ d_optTol d = tol /\ d_ID d = 0%nat /\ d_jobs d = [] /\
    d_queue d = map (fun e => (fst e, snd e, 1%Z)) (consecutive (map px c)) /\
    (forall s0, map pp c = hd s0 ss :: removelast ss).
Proof.
  intros Hi Hl. unfold initWith, setData. rewrite (sortedb_incr _ Hi). cbn [negb].
  destruct (le_lt_dec 2 (length times)) as [H2|H2].
  2:{ destruct times as [|a [|b r]]; cbn in H2; try lia; [cbn; discriminate|].
      cbn. replace (a - a) with 0 by lra. rewrite Reqb_refl. discriminate. }
  destruct (transform01_ok times Hi H2) as (xs & Ex & Ix & Lx & Hx0). rewrite Ex. cbn [rbind].
  destruct xs as [|x xr]; [cbn in Lx; lia|].
  destruct ss as [|s sr]; [cbn in Hl; lia|]. destruct times as [|t tr]; [cbn in H2; lia|].
  cbn [newData d_sols d_levels d_prevs with_knots].
  assert (E1 : rinsert x s [] = [(x, s)]) by reflexivity.
  assert (E2 : rinsert x 0%Z [] = [(x, 0%Z)]) by reflexivity.
  cbn [length] in *.
  unfold deref. cbn [minsert mfind mset]. rewrite Reqb_refl. cbn [rbind].
  rewrite (setDataLoop_ok xr x tr sr s [(x, s)] [(x, s)] [(x, 0%Z)]); auto; try lia.
  2:{ cbn. rewrite Reqb_refl. reflexivity. }
  cbn [rbind fst snd].
  set (c := mkPoint x t s s 0%Z :: newPoints 0 s xr tr sr).
  set (d1 := with_sols _ _ _ _).
  assert (Px : map px c = x :: xr) by (unfold c; cbn; rewrite newPoints_px by lia; auto).
  assert (Pt : map pt c = t :: tr) by (unfold c; cbn; rewrite newPoints_pt by lia; auto).
  assert (HPs : map ps c = s :: sr) by (unfold c; cbn; rewrite newPoints_ps by lia; auto).
  assert (Pl : Forall (fun p => pl p = 0%Z) c).
  { unfold c. constructor; auto. rewrite Forall_forall. intros p Hp.
    assert (In (pl p) (repeat 0%Z (length sr))).
    { rewrite <- (newPoints_pl 0 s xr tr sr) by lia. apply in_map, Hp. }
    apply repeat_spec in H. auto. }
  destruct (init_inv d1 c) as (d3 & E3 & I3 & O1 & O2 & O3 & O4 & O5 & O6).
  - unfold RepK, d1, c. cbn. rewrite !newPoints_px, !newPoints_pt by lia. repeat split; auto.
  - unfold c; discriminate.
  - exact Hx0.
  - reflexivity.
  - rewrite Forall_forall in *. intros p Hp. rewrite (Pl p Hp). lia.
  - intros Hd. assert (d3 = d) by congruence. subst d3. exists c. split; [exact I3|]. repeat split; auto.
    intros s0. unfold c. cbn [map pp hd]. f_equal. apply newPoints_pp; lia.
Qed.

Lemma created_start_inv ml tol s prio (d : data) :
  addStartPoint (newData ml tol) 0 s prio = Ok d ->
  Inv d [mkPoint 0 0 s s 0%Z] /\ d_optMaxLevel d = ml /\ d_optTol d = tol /\ d_ID d = 0%nat /\
  d_jobs d = [] /\ d_queue d = [(0, 0, 0%Z)].
Proof.
  unfold addStartPoint. cbn. unfold deref. cbn. rewrite Reqb_refl. cbn.
  intros [= <-]. split.
  - constructor.
    + unfold Rep. cbn. repeat split; auto using incr_one.
      intros p [<-|[]]. reflexivity.
    + discriminate.
    + reflexivity.
    + split; [intros p [<-|[]]|]; reflexivity.
    + reflexivity.
    + split; reflexivity.
    + unfold entries. cbn. rewrite app_nil_r. destruct prio; cbn; repeat constructor;
      left; cbn; auto.
    + unfold segs, entries. destruct prio; cbn; constructor.
    + constructor.
    + constructor.
    + cbn. repeat constructor; cbn; lia.
  - repeat split; try reflexivity. destruct prio; reflexivity.
Qed.

(** ** the invariant is kept by each call *)
Lemma pop_inv d c d' id dt start prev :
  Inv d c -> pop d = Ok (d', (id, dt, start, prev)) ->
  Inv d' c /\ id = d_ID d /\
  exists xlo xhi lev q a b,
    d_queue d = (xlo, xhi, lev) :: q /\ d_queue d' = q /\
    d_jobs d' = d_jobs d ++ [(id, (xlo, xhi, lev))] /\ d_ID d' = S (d_ID d) /\
    In a c /\ In b c /\ px a = xlo /\ px b = xhi /\
    start = ps a /\ prev = pp a /\
    dt = (if Reqb xlo xhi && (lev =? 0)%Z then d_dt d else pt b - pt a) /\
    d_optMaxLevel d' = d_optMaxLevel d /\ d_optTol d' = d_optTol d /\ d_dt d' = d_dt d.
Proof.
  intros [HR Hne Hx0 Hxm Hin Hop He Hnd Hj Hid Hl] H. unfold pop in H. rewrite Hin in H. cbn [negb] in H.
  destruct (d_queue d) as [|[[xlo xhi] lev] q] eqn:Eq; [discriminate|].
  cbn [with_queue d_tmap d_ximap d_sols d_prevs d_dt d_ID d_jobs with_maps] in H.
  pose proof HR as (R1&R2&R3&R4&R5&R6&R7&R8).
  assert (Hent : entry_ok (d_maxLevel d) (d_xi d) (xlo, xhi, lev)).
  { unfold entries in He. rewrite Eq in He. inversion He; auto. }
  assert (Hlohi : In xlo (d_xi d) /\ In xhi (d_xi d)).
  { destruct Hent as [(_ & E & Hi)|(_ & Ha)]; cbn in *; [subst; auto|apply Adj_in in Ha; auto]. }
  destruct Hlohi as [Hlo Hhi]. rewrite R1 in Hlo, Hhi.
  apply in_map_iff in Hlo as (a & <- & Ha). apply in_map_iff in Hhi as (b & <- & Hb).
  destruct (rread 0 (px a) (d_tmap d)) as [tlow tm1] eqn:E1.
  destruct (rread 0 (px b) tm1) as [tupp tm2] eqn:E2.
  assert (Htl : tlow = pt a).
  { rewrite <- (R8 a Ha). unfold tval. rewrite E1. reflexivity. }
  assert (Htm1 : forall x, tval tm1 x = tval (d_tmap d) x).
  { intros x. replace tm1 with (snd (rread 0 (px a) (d_tmap d))) by (rewrite E1; auto). apply tval_read. }
  assert (Htm2 : forall x, tval tm2 x = tval (d_tmap d) x).
  { intros x. rewrite <- Htm1. replace tm2 with (snd (rread 0 (px b) tm1)) by (rewrite E2; auto). apply tval_read. }
  assert (Htu : tupp = pt b).
  { rewrite <- (R8 b Hb). rewrite <- Htm1. unfold tval. rewrite E2. reflexivity. }
  rewrite R3, R4 in H.
  rewrite (rfind_map_in c ps a R6 Ha), (rfind_map_in c pp a R6 Ha) in H.
  injection H as <- <- <- <- <-.
  rewrite (nset_fresh _ _ _ Hid).
  split.
  - constructor; cbn.
    + unfold Rep. cbn. repeat split; auto. intros p Hp. rewrite Htm2. auto.
    + auto.
    + auto.
    + auto.
    + auto.
    + auto.
    + unfold entries in *. cbn. rewrite Eq in He. rewrite map_app. cbn.
      inversion He as [|? ? H1 H2]; subst. apply Forall_app in H2 as [H2 H3].
      repeat (apply Forall_app; split); auto.
    + unfold segs, entries in *. cbn. rewrite Eq in Hnd. rewrite map_app. cbn [map snd].
      cbn [app] in Hnd. eapply Permutation_NoDup; [|exact Hnd]. apply Permutation_map.
      assert (P : Permutation ((px a, px b, lev) :: q ++ map snd (d_jobs d))
                   (q ++ map snd (d_jobs d) ++ [(px a, px b, lev)])).
      { rewrite app_assoc. apply Permutation_cons_append. }
      apply (filter_perm _ _ P).
    + rewrite map_app. cbn.
      eapply Permutation_NoDup; [apply Permutation_cons_append|]. constructor; auto.
      intros Hin'. apply in_map_iff in Hin' as (x & E & Hx). rewrite Forall_forall in Hid.
      specialize (Hid x Hx). lia.
    + apply Forall_app. split.
      * eapply Forall_impl; [|exact Hid]. cbn. intros; lia.
      * repeat constructor.
    + auto.
  - split; [reflexivity|].
    exists (px a), (px b), lev, q, a, b. rewrite Htl, Htu. cbn. repeat split; auto.
Qed.

Lemma finish_inv d c id : Inv d c -> Inv (finishJob d id) c.
Proof.
  intros [HR Hne Hx0 Hxm Hin Hop He Hnd Hj Hid Hl]. unfold finishJob. constructor; cbn; auto.
  - unfold entries in *. cbn. apply Forall_app in He as [H1 H2]. apply Forall_app. split; auto.
    rewrite Forall_forall in *. intros x Hx. apply H2. apply in_map_iff in Hx as (y & <- & Hy).
    apply in_map. eapply nerase_incl; eauto.
  - unfold segs, entries in *. cbn. apply segs_erase_nodup; auto.
  - apply nerase_nodup; auto.
  - rewrite Forall_forall in *. intros x Hx. apply Hid. eapply nerase_incl; eauto.
Qed.

(** splitting the curve at an active segment *)
Lemma Adj_points (c : list (@point sol)) lo hi : Adj (map px c) lo hi ->
  exists pre a b post, c = pre ++ a :: b :: post /\ lo = px a /\ hi = px b.
Proof.
  intros (p & q & E). apply map_eq_app in E as (c1 & c2 & -> & E1 & E2).
  destruct c2 as [|a [|b post]]; try discriminate. cbn in E2. injection E2 as <- <- _.
  exists c1, a, b, post. auto.
Qed.

Lemma complete_inv d c id lev lo hi ds ss up low d' :
  Inv d c -> nfind id (d_jobs d) = Some (lo, hi, lev) -> (1 <= lev)%Z ->
  result_ok ds ss ->
  submit d id ds ss up low = Ok d' ->
  exists pre a b post,
    c = pre ++ a :: b :: post /\ lo = px a /\ hi = px b /\
    length_check (pt b - pt a) ds /\
    Inv (finishJob d' id) (spliced pre a b post lev ds ss) /\
    d_queue d' = d_queue d ++
      newSegments (d_maxLevel d) (d_tol d) (px a :: midX a b ds ++ [px b])
        lev (pt b - pt a - low) (Rsum ds - up - (pt b - pt a - low)) (pt b - pt a) /\
    d_jobs d' = d_jobs d /\ d_ID d' = d_ID d /\ d_maxLevel d' = d_maxLevel d /\
    d_tol d' = d_tol d /\ d_dt d' = d_dt d /\
    d_optMaxLevel d' = d_optMaxLevel d /\ d_optTol d' = d_optTol d /\
    Rep d' (spliced pre a b post lev ds ss) /\
    d_ximap d' = map (fun p => (pt p, px p)) (spliced pre a b post lev ds ss).
Proof.
  intros HI Hjob Hlev Hres Hsub. pose proof HI as [HR Hne Hx0 Hxm Hin Hop He Hnd Hj Hid Hl].
  pose proof HR as (R1&R2&R3&R4&R5&R6&R7&R8).
  destruct (nfind_split _ _ _ Hj Hjob) as (j1 & j2 & Ej & Ee).
  assert (Hent : entry_ok (d_maxLevel d) (d_xi d) (lo, hi, lev)).
  { rewrite Forall_forall in He. apply He. unfold entries. apply in_or_app; right.
    rewrite Ej, map_app. apply in_or_app; right; left; auto. }
  destruct Hent as [(E0 & _)|(Hlv & Hadj)]; [cbn in E0; lia|]. cbn [seg_lev seg_lo seg_hi fst snd] in *.
  rewrite R1 in Hadj. destruct (Adj_points c lo hi Hadj) as (pre & a & b & post & -> & -> & ->).
  exists pre, a, b, post. split; [auto|]. split; [auto|]. split; [auto|].
  assert (Hck : length_check (pt b - pt a) ds).
  { (* otherwise submit fails *)
    set (c := pre ++ a :: b :: post) in *.
    assert (Ina : In a c) by (unfold c; apply in_or_app; right; left; auto).
    assert (Inb : In b c) by (unfold c; apply in_or_app; right; right; left; auto).
    unfold length_check. unfold submit in Hsub. rewrite Hin in Hsub. cbn [negb] in Hsub.
    destruct Hres as [Hlen _].
    replace (length ds =? length ss + 1)%nat with true in Hsub by (symmetry; apply Nat.eqb_eq; lia).
    cbn [negb] in Hsub. rewrite (readJob_known _ _ _ Hjob) in Hsub.
    pose proof (Rep_readTime d c (px a) HR) as HR1.
    pose proof (readTime_val d c a HR Ina) as Hta.
    destruct (readTime d (px a)) as [d1 tlow]. cbn [fst snd] in *. subst tlow.
    pose proof (readTime_val d1 c b HR1 Inb) as Htb.
    destruct (readTime d1 (px b)) as [d2 tupp]. cbn [fst snd] in *. subst tupp.
    destruct (Reqb (pt b - pt a) 0); [discriminate|].
    destruct (Rltb ((pt b - pt a - Rsum (removelast ds)) / (pt b - pt a)) (1 / 10 ^ 12)) eqn:E; [|discriminate].
    apply Rltb_true in E. exact E. }
  split; [exact Hck|].
  destruct (submit_ok d pre a b post id lev ds ss up low HR Hin Hjob Hres Hck)
    as (d1 & E1 & HR' & Q1 & J1 & I1 & M1 & T1 & D1 & N1 & O1 & O2 & TM & XM).
  assert (d1 = d') by congruence. subst d1.
  split; [|tauto].
  destruct Hres as [Hlen Hpos].
  assert (Ex : d_xi d' = (map px pre ++ [px a]) ++ midX a b ds ++ px b :: map px post).
  { destruct HR' as (X & _). rewrite X, spliced_px by auto. rewrite map_app. reflexivity. }
  assert (Ex0 : d_xi d = map px pre ++ px a :: px b :: map px post).
  { rewrite R1, map_app. reflexivity. }
  assert (Hmid : forall x, In x (midX a b ds) -> ~ In x (d_xi d)).
  { destruct HR' as (X & _ & _ & _ & _ & IX & _). rewrite <- X, Ex in IX.
    apply incr_NoDup in IX. intros x Hx Hxold. rewrite Ex0 in Hxold.
    assert (ND : NoDup (midX a b ds ++ (map px pre ++ [px a]) ++ px b :: map px post)).
    { eapply Permutation_NoDup; [|exact IX].
      apply Permutation_app_swap_app. }
    rewrite <- app_assoc in ND. cbn in ND.
    apply in_split in Hx as (u & v & Eu). rewrite Eu in ND.
    rewrite <- app_assoc in ND. cbn in ND. apply NoDup_remove_2 in ND. apply ND.
    apply in_or_app; right. apply in_or_app; right. exact Hxold. }
  set (new := newSegments (d_maxLevel d) (d_tol d) (px a :: midX a b ds ++ [px b])
        lev (pt b - pt a - low) (Rsum ds - up - (pt b - pt a - low)) (pt b - pt a)) in *.
  assert (Hnew : exists l, new = map (fun e => (fst e, snd e, (lev + 1)%Z)) l /\
            incl l (consecutive (px a :: midX a b ds ++ [px b])) /\
            NoDup (map fst l) /\ (l = [] \/ (lev < d_maxLevel d)%Z)).
  { unfold new. rewrite newSegments_eq by (cbn; rewrite app_length; cbn; lia).
    assert (NDc : NoDup (map fst (consecutive (px a :: midX a b ds ++ [px b])))).
    { rewrite consecutive_fst. apply NoDup_removelast, incr_NoDup.
      destruct HR' as (X & _ & _ & _ & _ & IX & _). rewrite <- X, Ex in IX.
      replace ((map px pre ++ [px a]) ++ midX a b ds ++ px b :: map px post)
        with (map px pre ++ (px a :: midX a b ds ++ [px b]) ++ map px post) in IX
        by (rewrite <- !app_assoc; cbn; rewrite <- app_assoc; reflexivity).
      apply incr_app in IX as (_ & IX & _). apply incr_app in IX as (IX & _). exact IX. }
    assert (Hc1 : consecutive (px a :: midX a b ds ++ [px b]) <> []).
    { destruct (midX a b ds); discriminate. }
    destruct (lev <? d_maxLevel d)%Z eqn:El.
    2:{ exists []. cbn. repeat split; auto using NoDup_nil, incl_nil_l. }
    apply Z.ltb_lt in El.
    destruct (Rltb _ _), (Rltb _ _).
    - exists []. cbn. repeat split; auto using NoDup_nil, incl_nil_l.
    - eexists. split; [reflexivity|]. split; [|split; [|auto]].
      + intros e [<-|[]]. destruct (exists_last Hc1) as (l' & y & E). rewrite E, last_last.
        apply in_or_app; right; left; auto.
      + constructor; auto using NoDup_nil.
    - eexists. split; [reflexivity|]. split; [|split; [|auto]].
      + apply removelast_incl.
      + destruct (exists_last Hc1) as (l' & y & E). rewrite E in *. rewrite removelast_last.
        rewrite map_app in NDc. apply NoDup_app_l in NDc. exact NDc.
    - eexists. split; [reflexivity|]. split; [|split; [|auto]]; auto using incl_refl. }
  destruct Hnew as (lnew & Enew & Inew & NDnew & Lnew).
  (* lows of other entries differ from px a *)
  assert (Hother : forall e, In e (d_queue d ++ map snd (j1 ++ j2)) -> isSeg e = true -> seg_lo e <> px a).
  { intros e Hin' Hs Heq. unfold segs, entries in Hnd. rewrite Ej in Hnd.
    rewrite map_app in Hnd. cbn [map snd] in Hnd.
    assert (P : Permutation (d_queue d ++ map snd j1 ++ (px a, px b, lev) :: map snd j2)
                  ((px a, px b, lev) :: d_queue d ++ map snd (j1 ++ j2))).
    { rewrite map_app, !app_assoc. symmetry. apply Permutation_middle. }
    assert (ND : NoDup (map seg_lo (filter isSeg ((px a, px b, lev) :: d_queue d ++ map snd (j1 ++ j2))))).
    { eapply Permutation_NoDup; [|exact Hnd]. apply Permutation_map.
      apply (filter_perm _ _ P). }
    cbn [filter] in ND. assert (isSeg (px a, px b, lev) = true) as Hs0
      by (unfold isSeg; cbn; apply Z.leb_le; lia).
    rewrite Hs0 in ND. cbn [map] in ND. inversion ND as [|? ? Hn _]; subst.
    apply Hn. change (seg_lo (px a, px b, lev)) with (px a). rewrite <- Heq.
    apply in_map, filter_In. auto. }
  assert (Hch : forall e, In e new -> In (seg_lo e) (px a :: midX a b ds) /\
               Adj (d_xi d') (seg_lo e) (seg_hi e) /\ seg_lev e = (lev + 1)%Z).
  { intros e He'. rewrite Enew in He'. apply in_map_iff in He' as ([u v] & <- & Huv). cbn.
    split; [|split; auto].
    - apply Inew in Huv. apply (in_map fst) in Huv. rewrite consecutive_fst in Huv.
      change (px a :: midX a b ds ++ [px b]) with ((px a :: midX a b ds) ++ [px b]) in Huv.
      rewrite removelast_last in Huv. exact Huv.
    - rewrite Ex. apply Adj_children. apply Inew, Huv. }
  constructor.
  - unfold finishJob. unfold Rep in *. cbn. exact HR'.
  - unfold spliced. destruct pre; discriminate.
  - unfold finishJob. cbn. rewrite Ex. rewrite Ex0 in Hx0. destruct pre; cbn in *; auto.
  - unfold finishJob. cbn. rewrite XM. apply tval_ximap; auto. apply HR'.
  - unfold finishJob. cbn. auto.
  - unfold finishJob. cbn. rewrite M1, T1, O1, O2. auto.
  - unfold entries, finishJob. cbn [d_queue d_jobs with_jobs d_maxLevel d_xi].
    rewrite Q1, J1, Ee, M1. rewrite Forall_forall in *.
    assert (Hold : forall e, In e (d_queue d ++ map snd (j1 ++ j2)) -> entry_ok (d_maxLevel d) (d_xi d') e).
    { intros e He'. assert (Hok : entry_ok (d_maxLevel d) (d_xi d) e).
      { apply He. unfold entries. rewrite Ej. apply in_app_or in He' as [H|H]; apply in_or_app; auto.
        right. rewrite map_app in *. apply in_app_or in H as [H|H]; apply in_or_app; cbn; auto. }
      destruct Hok as [(Z0 & E & Hi)|(HL & HA)].
      - left. repeat split; auto. rewrite Ex. rewrite Ex0 in Hi.
        apply in_app_or in Hi as [Hi|[Hi|Hi]].
        + apply in_or_app; left. apply in_or_app; auto.
        + apply in_or_app; left. apply in_or_app; right. left; auto.
        + apply in_or_app; right. apply in_or_app; auto.
      - right. split; auto. rewrite Ex, Ex0 in *. apply Adj_splice; auto.
        apply Hother; auto. unfold isSeg. apply Z.leb_le. lia. }
    intros e He'. rewrite <- app_assoc in He'. apply in_app_or in He' as [H|H].
    + apply Hold. apply in_or_app; auto.
    + apply in_app_or in H as [H|H].
      * destruct (Hch e H) as (H1 & H2 & H3). right. split; auto. rewrite H3.
        destruct Lnew as [E|E]; [rewrite Enew, E in H; destruct H|]. lia.
      * apply Hold. apply in_or_app; auto.
  - unfold segs, entries, finishJob. cbn [d_queue d_jobs with_jobs]. rewrite Q1, J1, Ee.
    assert (P : Permutation ((d_queue d ++ new) ++ map snd (j1 ++ j2))
                  (new ++ (d_queue d ++ map snd (j1 ++ j2)))).
    { rewrite <- app_assoc. apply Permutation_app_swap_app. }
    eapply Permutation_NoDup; [apply Permutation_map; symmetry|].
    { apply (filter_perm _ _ P). }
    rewrite filter_app, map_app. 
    assert (NDapp : forall (A B : list R), NoDup A -> NoDup B -> (forall x, In x A -> ~ In x B) -> NoDup (A ++ B)).
    { clear. intros A B HA HB HD. induction HA as [|x A Hx HA IH]; cbn; auto.
      constructor.
      - intros Hin. apply in_app_or in Hin as [H|H]; auto. apply (HD x); cbn; auto.
      - apply IH. intros y Hy. apply HD. right; auto. }
    apply NDapp.
    + rewrite Enew. assert (Ef : filter isSeg (map (fun e => (fst e, snd e, (lev + 1)%Z)) lnew) =
          map (fun e => (fst e, snd e, (lev + 1)%Z)) lnew).
      { clear -Hlev. induction lnew as [|e l IH]; cbn; auto. unfold isSeg at 1. cbn.
        replace (1 <=? lev + 1)%Z with true by (symmetry; apply Z.leb_le; lia). f_equal. exact IH. }
      rewrite Ef, map_map. cbn. exact NDnew.
    + pose proof (segs_erase_nodup (d_queue d) (d_jobs d) id Hj Hnd) as H. rewrite Ee in H. exact H.
    + intros x Hx Hx'. apply in_map_iff in Hx as (e & <- & Hf). apply filter_In in Hf as [Hf _].
      destruct (Hch e Hf) as (H1 & _). apply in_map_iff in Hx' as (e' & E' & Hf').
      apply filter_In in Hf' as [Hf' Hs'].
      destruct H1 as [H1|H1].
      * apply (Hother e' Hf' Hs'). congruence.
      * apply (Hmid _ H1). rewrite <- E'.
        assert (Hok : entry_ok (d_maxLevel d) (d_xi d) e').
        { rewrite Forall_forall in He. apply He. unfold entries. rewrite Ej.
          apply in_app_or in Hf' as [H|H]; apply in_or_app; auto.
          right. rewrite map_app in *. apply in_app_or in H as [H|H]; apply in_or_app; cbn; auto. }
        destruct Hok as [(_ & _ & Hi)|(_ & HA)]; auto. apply Adj_in in HA. tauto.
  - unfold finishJob. cbn. rewrite J1. apply nerase_nodup. auto.
  - unfold finishJob. cbn. rewrite J1, I1. rewrite Forall_forall in *. intros x Hx. apply Hid.
    eapply nerase_incl; eauto.
  - unfold finishJob. cbn [d_maxLevel with_jobs]. rewrite M1.
    assert (Hs : Forall (fun l => (0 <= l <= Z.max 1 (d_maxLevel d))%Z)
                   (map pl (spliced pre a b post lev ds ss))).
    { rewrite spliced_map, newPoints_pl
        by (rewrite ?(midX_length a b ds ss Hlen), ?(midT_length a ds ss Hlen); reflexivity).
      apply Forall_app in Hl as [L1 L2]. inversion L2 as [|? ? La Lb]; subst.
      repeat (apply Forall_app; split).
      - rewrite map_app. apply Forall_app. split.
        + rewrite Forall_map. auto.
        + repeat constructor; lia.
      - rewrite Forall_forall. intros x Hx. apply repeat_spec in Hx. lia.
      - rewrite Forall_map. eapply Forall_impl; [|exact Lb]. cbn. auto. }
    rewrite Forall_map in Hs. exact Hs.
Qed.

Lemma last_in (l : list R) x : l <> [] -> In (last l x) l.
Proof.
  intros H. destruct (exists_last H) as (l' & y & E). rewrite E, last_last.
  apply in_or_app; right; left; auto.
Qed.

Lemma appendPoint_inv d c prio d' :
  Inv d c -> appendPoint d prio = Ok d' ->
  Inv d' c /\ d_jobs d' = d_jobs d /\ d_ID d' = d_ID d /\
  d_queue d' = push prio (last (d_xi d) 0, last (d_xi d) 0, 0%Z) (d_queue d).
Proof.
  intros [HR Hne Hx0 Hxm Hin Hop He Hnd Hj Hid Hl] H. unfold appendPoint in H.
  pose proof HR as (R1&_).
  destruct (d_xi d) as [|x0 xr] eqn:Ex; [discriminate|]. injection H as <-.
  set (x := last (x0 :: xr) 0).
  assert (Hx : In x (d_xi d)) by (rewrite Ex; apply last_in; discriminate).
  rewrite <- Ex in *.
  split; [|repeat split; reflexivity].
  constructor; cbn; auto.
  - unfold entries in *. cbn. apply Forall_app in He as [H1 H2].
    assert (Hn : entry_ok (d_maxLevel d) (d_xi d) (x, x, 0%Z)) by (left; cbn; auto).
    unfold push. destruct prio; cbn.
    + constructor; auto. apply Forall_app; auto.
    + apply Forall_app; split; auto. apply Forall_app; split; auto.
  - unfold segs, entries in *. cbn. unfold push. destruct prio; cbn; auto.
    rewrite !filter_app in *. cbn. rewrite app_nil_r. auto.
Qed.

Lemma appendData_inv d c t s prio d' :
  Inv d c -> appendData d t s prio = Ok d' ->
  exists p xlast tlast,
    Inv d' (c ++ [p]) /\ pt p = t /\ ps p = s /\ pl p = 0%Z /\
    xlast = last (map px c) 0 /\ tlast = last (map pt c) 0 /\ tlast < t /\
    d_jobs d' = d_jobs d /\ d_ID d' = d_ID d /\ d_dt d' = d_dt d /\
    d_optMaxLevel d' = d_optMaxLevel d /\ d_optTol d' = d_optTol d /\
    d_maxLevel d' = d_maxLevel d /\ d_tol d' = d_tol d /\
    (exists q, In q c /\ px q = xlast /\ pt q = tlast /\ pp p = ps q) /\
    d_queue d' = push prio (xlast, px p, 1%Z) (d_queue d).
Proof.
  intros HI H. pose proof HI as [HR Hne Hx0 Hxm Hin Hop He Hnd Hj Hid Hl].
  pose proof HR as (R1&R2&R3&R4&R5&R6&R7&R8).
  unfold appendData in H. rewrite R1, R2, !map_length, Nat.eqb_refl in H. cbn [negb] in H.
  destruct (exists_last Hne) as (c0 & q & Ec).
  assert (Hlen : length c <> 0%nat) by (destruct c; [congruence|discriminate]).
  assert ((length c =? 0)%nat = false) as E0 by (apply Nat.eqb_neq; auto).
  rewrite E0 in H. cbn [orb] in H.
  assert (Elx : last (map px c) 0 = px q) by (rewrite Ec, map_app; apply last_last).
  assert (Elt : last (map pt c) 0 = pt q) by (rewrite Ec, map_app; apply last_last).
  rewrite Elx, Elt in H.
  destruct (Rltb (pt q) t) eqn:Et; cbn [negb] in H; [|discriminate]. apply Rltb_true in Et.
  assert (Inq : In q c) by (rewrite Ec; apply in_or_app; right; left; auto).
  assert (Hlastx : forall y, In y (map px c) -> y <= px q).
  { intros y Hy. rewrite Ec, map_app in Hy, R6. apply incr_app in R6 as (_&_&R6).
    apply in_app_or in Hy as [Hy|[<-|[]]]; [|lra]. specialize (R6 y (px q) Hy (or_introl eq_refl)). lra. }
  assert (Hlastt : forall y, In y (map pt c) -> y <= pt q).
  { intros y Hy. rewrite Ec, map_app in Hy, R7. apply incr_app in R7 as (_&_&R7).
    apply in_app_or in Hy as [Hy|[<-|[]]]; [|lra]. specialize (R7 y (pt q) Hy (or_introl eq_refl)). lra. }
  (* the new parameter is beyond the last one *)
  match type of H with rbind ?X _ = _ => destruct X as [xi|] eqn:Exi end; [|discriminate].
  assert (Hxi : px q < xi \/ (length c = 1%nat /\ xi = 1)).
  { destruct (length c) as [|[|n]] eqn:El; [lia| |].
    - injection Exi as <-. right; auto.
    - left. destruct c0 as [|p0 c1]; [rewrite Ec in El; cbn in El; lia|].
      assert (Hpx0 : px p0 < px q).
      { rewrite Ec, map_app in R6. apply incr_app in R6 as (_&_&R6). apply R6; left; auto. }
      assert (Ht0 : pt p0 < pt q).
      { rewrite Ec, map_app in R7. apply incr_app in R7 as (_&_&R7). apply R7; left; auto. }
      rewrite Ec in Exi. cbn [map app hd] in Exi.
      assert (Reqb (pt q - pt p0) 0 = false) as E1 by (apply Reqb_false; lra).
      rewrite E1 in Exi. injection Exi as <-.
      assert (0 < (t - pt q) * (px q - px p0) / (pt q - pt p0)).
      { apply Rmult_lt_0_compat; [apply Rmult_lt_0_compat; lra|apply Rinv_0_lt_compat; lra]. }
      lra. }
  assert (Hxi2 : px q < xi).
  { destruct Hxi as [?|[H1 ->]]; auto. destruct c as [|p0 [|]]; try discriminate.
    rewrite R1 in Hx0. cbn in Hx0. destruct c0 as [|? [|]]; try discriminate.
    cbn in Ec. injection Ec as ->. rewrite Hx0. lra. }
  clear Hxi Exi. cbn [rbind] in H.
  assert (Hfresh : forall y, In y (map px c) -> y < xi) by (intros y Hy; specialize (Hlastx y Hy); lra).
  assert (Hfresht : forall y, In y (map pt c) -> y < t) by (intros y Hy; specialize (Hlastt y Hy); lra).
  assert (Hnin : ~ In xi (map px c)) by (intros Hi; specialize (Hfresh xi Hi); lra).
  assert (Hins : forall V (g : point -> V) v, rinsert xi v (map (fun p => (px p, g p)) c) =
             map (fun p => (px p, g p)) c ++ [(xi, v)]).
  { intros V g v. rewrite rinsert_new by (rewrite map_map; exact Hnin).
    rewrite <- (app_nil_r (map (fun p => (px p, g p)) c)) at 1. apply rset_middle.
    - rewrite map_map. exact Hfresh.
    - intros y []. }
  rewrite R3, R4, R5 in H. rewrite !Hins in H.
  set (p := mkPoint xi t s (ps q) 0%Z).
  assert (Efind : rfind (px q) (map (fun p => (px p, ps p)) c ++ [(xi, s)]) = Some (ps q)).
  { pose proof (rfind_map_in c ps q R6 Inq) as F. revert F.
    generalize (map (fun p0 : point => (px p0, ps p0)) c). intros l. induction l as [|[k v] l IHl]; cbn; [discriminate|].
    destruct (Reqb (px q) k); auto. }
  unfold deref in H. rewrite Efind in H. cbn [rbind] in H.
  cbn [d_xi d_t with_init with_queue with_sols] in H.
  assert (Ekx : kinsert xi (d_xi d) = map px (c ++ [p])).
  { rewrite R1, map_app. rewrite <- (app_nil_r (map px c)) at 1. apply kinsert_middle; auto. intros y []. }
  assert (Ekt : kinsert t (d_t d) = map pt (c ++ [p])).
  { rewrite R2, map_app. rewrite <- (app_nil_r (map pt c)) at 1. apply kinsert_middle; auto. intros y []. }
  rewrite Ekx, Ekt in H.
  assert (Ix : incr (map px (c ++ [p]))).
  { rewrite map_app. apply incr_app. split; [auto|]. split; [apply incr_one|].
    intros x y Hx [<-|[]]. apply Hfresh, Hx. }
  assert (It : incr (map pt (c ++ [p]))).
  { rewrite map_app. apply incr_app. split; [auto|]. split; [apply incr_one|].
    intros x y Hx [<-|[]]. apply Hfresht, Hx. }
  rewrite (buildMap_ok _ (c ++ [p])) in H by auto. injection H as <-.
  exists p, (px q), (pt q). split; [|repeat split; auto].
  2:{ exists q. auto. }
  assert (Hxq : In (px q) (map px c)) by (apply in_map; auto).
  assert (Eold : map px (c ++ [p]) = d_xi d ++ [xi]) by (rewrite R1, map_app; auto).
  assert (Hadj : Adj (map px (c ++ [p])) (px q) xi).
  { rewrite Ec, <- app_assoc, map_app. exists (map px c0), []. reflexivity. }
  constructor.
  - unfold Rep. cbn. repeat split; auto.
    + rewrite map_app, ?Hins. reflexivity.
    + rewrite map_app, ?Hins. reflexivity.
    + rewrite map_app, ?Hins. reflexivity.
    + intros r Hr. apply tval_built; auto.
  - destruct c; discriminate.
  - cbn [d_xi with_maps with_knots]. rewrite Eold. rewrite R1 in *.
    destruct c; [congruence|]. cbn in *. auto.
  - cbn. apply tval_ximap; auto.
  - reflexivity.
  - cbn. auto.
  - cbn [d_maxLevel d_xi with_maps with_knots with_init with_queue with_sols].
    unfold entries in *. cbn [d_queue d_jobs with_maps with_knots with_init with_queue with_sols].
    assert (Hold : forall e, entry_ok (d_maxLevel d) (d_xi d) e -> entry_ok (d_maxLevel d) (map px (c ++ [p])) e).
    { intros e [(A & B & C)|(A & B)]; [left|right]; rewrite Eold.
      - repeat split; auto. apply in_or_app; auto.
      - split; auto. apply Adj_app_r; auto. }
    assert (Hnew : entry_ok (d_maxLevel d) (map px (c ++ [p])) (px q, xi, 1%Z)).
    { right. cbn. split; [lia|]. auto. }
    apply Forall_app in He as [H1 H2].
    apply (Forall_impl _ Hold) in H1. apply (Forall_impl _ Hold) in H2.
    unfold push. destruct prio; cbn [app].
    + constructor; auto. apply Forall_app; auto.
    + apply Forall_app; split; auto. apply Forall_app; split; auto.
  - unfold segs, entries in *. cbn [d_queue d_jobs with_maps with_knots with_init with_queue with_sols].
    assert (P : Permutation (push prio (px q, xi, 1%Z) (d_queue d) ++ map snd (d_jobs d))
                  ((px q, xi, 1%Z) :: d_queue d ++ map snd (d_jobs d))).
    { unfold push. destruct prio; cbn; auto. rewrite <- app_assoc. symmetry. apply Permutation_middle. }
    eapply Permutation_NoDup; [apply Permutation_map; symmetry; apply (filter_perm _ _ P)|].
    cbn. constructor; auto. intros Hx. apply in_map_iff in Hx as (e & E1 & Hf).
    apply filter_In in Hf as [Hf Hs]. rewrite Forall_forall in He. specialize (He e Hf).
    unfold isSeg in Hs. apply Z.leb_le in Hs.
    destruct He as [(A & _)|(_ & B)]; [lia|]. rewrite E1 in B. cbn in B.
    rewrite R1 in B. pose proof (Adj_lt _ _ _ R6 B). pose proof (Hlastx _ (proj2 (Adj_in _ _ _ B))). lra.
  - cbn. auto.
  - cbn. auto.
  - cbn [d_maxLevel with_maps with_knots with_init with_queue with_sols].
    apply Forall_app. split; auto. repeat constructor; cbn; lia.
Qed.

(** queries may only add default entries to the time maps *)
Definition sim (d d' : data) : Prop :=
  exists tm xm, d' = with_maps d tm xm /\ (forall x, tval tm x = tval (d_tmap d) x) /\
                (forall x, tval xm x = tval (d_ximap d) x).

Lemma sim_refl d : sim d d.
Proof. exists (d_tmap d), (d_ximap d). destruct d; cbn; auto. Qed.
Lemma sim_trans d1 d2 d3 : sim d1 d2 -> sim d2 d3 -> sim d1 d3.
Proof.
  intros (a & b & -> & H1 & H2) (u & v & -> & H3 & H4). exists u, v. cbn in *.
  split; [reflexivity|]. split; intros x; [rewrite H3|rewrite H4]; auto.
Qed.
Lemma sim_inv d d' c : sim d d' -> Inv d c -> Inv d' c.
Proof.
  intros (a & b & -> & H1 & H2) [HR Hne Hx0 Hxm Hin Hop He Hnd Hj Hid Hl].
  constructor; cbn; auto.
  - unfold Rep in *. cbn. destruct HR as (R1&R2&R3&R4&R5&R6&R7&R8). repeat split; auto.
    intros p Hp. rewrite H1. auto.
  - destruct Hxm as [Hx1 Hx2]. split; intros; rewrite H2; auto.
Qed.
Lemma sim_rep d d' c : sim d d' -> Rep d c -> Rep d' c.
Proof.
  intros (a & b & -> & H1 & H2) HR. unfold Rep in *. cbn. destruct HR as (R1&R2&R3&R4&R5&R6&R7&R8).
  repeat split; auto. intros p Hp. rewrite H1. auto.
Qed.
Lemma readTime_sim d x : sim d (fst (readTime d x)).
Proof.
  unfold readTime. pose proof (tval_read (d_tmap d) x) as H. destruct (rread 0 x (d_tmap d)) as [t tm].
  cbn in *. exists tm, (d_ximap d). auto.
Qed.
Lemma refTime_sim d t : sim d (fst (getReferenceByTime d t)).
Proof.
  unfold getReferenceByTime. pose proof (tval_read (d_ximap d) t) as H.
  destruct (rread 0 t (d_ximap d)) as [x xm].
  cbn in *. exists (d_tmap d), xm. auto.
Qed.
Lemma jobTimes_sim d id e : nfind id (d_jobs d) = Some e -> sim d (fst (jobTimes d id)).
Proof.
  intros H. unfold jobTimes. rewrite (readJob_known _ _ _ H).
  pose proof (readTime_sim d (seg_lo e)) as S1. destruct (readTime d (seg_lo e)) as [d1 t1]. cbn [fst] in S1.
  pose proof (readTime_sim d1 (seg_hi e)) as S2. destruct (readTime d1 (seg_hi e)) as [d2 t2]. cbn [fst] in *.
  eapply sim_trans; eauto.
Qed.

Definition keep (lvl : Z) (p : @point sol) : bool := ((pl p =? lvl) || (lvl =? -1))%Z.

Lemma flatLoop_spec (c0 : list (@point sol)) lvl : forall c (d : data),
  Rep d c0 -> incl c c0 ->
  sim d (fst (flatLoop lvl (map (fun p => (px p, ps p)) c) d)) /\
  snd (flatLoop lvl (map (fun p => (px p, ps p)) c) d) =
    (map pt (filter (keep lvl) c), map ps (filter (keep lvl) c), map pl (filter (keep lvl) c)).
Proof.
  induction c as [|p c IH]; intros d HR Hinc.
  - cbn. split; [apply sim_refl|reflexivity].
  - cbn [map flatLoop]. assert (Hp : In p c0) by (apply Hinc; left; auto).
    pose proof HR as (R1&R2&R3&R4&R5&R6&R7&R8).
    assert (El : rread 0%Z (px p) (d_levels d) = (pl p, d_levels d)).
    { apply mread_known. rewrite R5. apply rfind_map_in; auto. }
    rewrite El. cbn [filter]. fold (keep lvl p).
    assert (Ed : with_sols d (d_sols d) (d_prevs d) (d_levels d) = d) by (destruct d; reflexivity).
    rewrite Ed. destruct (keep lvl p).
    + pose proof (readTime_sim d (px p)) as S1. pose proof (readTime_val d c0 p HR Hp) as V1.
      unfold readTime in S1, V1. destruct (rread 0 (px p) (d_tmap d)) as [t tm]. cbn [fst snd] in *.
      destruct (IH (with_maps d tm (d_ximap d))) as [S2 E2].
      { eapply sim_rep; eauto. } { intros y Hy. apply Hinc. right; auto. }
      destruct (flatLoop lvl (map (fun p0 : point => (px p0, ps p0)) c) (with_maps d tm (d_ximap d)))
        as [d' [[ts ss] ls]]. cbn [fst snd map] in *. injection E2 as -> -> ->. subst t.
      split; auto. eapply sim_trans; eauto.
    + apply IH; auto. intros y Hy. apply Hinc. right; auto.
Qed.

Lemma flat_spec (d : data) c lvl : Rep d c ->
  sim d (fst (getFlatSolution d lvl)) /\
  snd (getFlatSolution d lvl) =
    (map pt (filter (keep lvl) c), map ps (filter (keep lvl) c), map pl (filter (keep lvl) c)).
Proof.
  intros HR. unfold getFlatSolution. pose proof HR as (R1&R2&R3&_). rewrite R3.
  eapply flatLoop_spec; eauto using incl_refl.
Qed.

Lemma flat_all (d : data) c : Rep d c ->
  snd (getFlatSolution d (-1)) = (map pt c, map ps c, map pl c).
Proof.
  intros HR. destruct (flat_spec d c (-1) HR) as [_ ->].
  assert (E : filter (keep (-1)) c = c).
  { clear. induction c as [|p c IH]; cbn; auto. unfold keep. cbn. rewrite orb_true_r. f_equal; auto. }
  rewrite E. reflexivity.
Qed.

(** ** every history keeps the invariant *)
Lemma exec_inv d c o d' k :
  Inv d c -> allowed d k -> exec d k = Ok (d', o) -> exists c', Inv d' c'.
Proof.
  intros HI HA H. destruct k; cbn [exec allowed] in *.
  - destruct (pop d) as [[d1 [[[id dt] start] prev]]|] eqn:E; [|discriminate].
    cbn [rbind] in H. injection H as <- <-. exists c. eapply pop_inv; eauto.
  - destruct HA as ((e & He & Hl) & Hr). destruct e as [[lo0 hi0] lev].
    destruct (submit d id ds ss up lo) as [d1|] eqn:E; [|discriminate].
    cbn [rbind] in H. injection H as <- <-.
    destruct (complete_inv d c id lev lo0 hi0 ds ss up lo d1 HI He Hl Hr E)
      as (pre & a & b & post & _ & _ & _ & _ & I & _). eexists; eauto.
  - injection H as <- <-. exists c. apply finish_inv; auto.
  - destruct (appendData d t s prio) as [d1|] eqn:E; [|discriminate].
    cbn [rbind] in H. injection H as <- <-.
    destruct (appendData_inv d c t s prio d1 HI E) as (p & x & y & I & _). eexists; eauto.
  - destruct (appendPoint d prio) as [d1|] eqn:E; [|discriminate].
    cbn [rbind] in H. injection H as <- <-. exists c. eapply appendPoint_inv; eauto.
  - injection H as <- <-. exists c. destruct HI as [HR Hne Hx0 Hxm Hin Hop He Hnd Hj Hid Hl].
    constructor; cbn; auto.
  - destruct (init d) as [d1|] eqn:E; [|discriminate]. cbn [rbind] in H. injection H as <- <-.
    destruct HI as [HR Hne Hx0 Hxm Hin Hop He Hnd Hj Hid Hl].
    destruct (init_inv d c) as (d2 & E2 & I & _); auto.
    + unfold RepK. destruct HR as (R1&R2&R3&R4&R5&R6&R7&R8). repeat split; auto.
    + destruct Hop as [<- _]. auto.
    + exists c. assert (d2 = d1) by congruence. subst; auto.
  - destruct HA as (e & He). injection H as <- <-. exists c.
    unfold jobLevel, getReferenceByID. rewrite (readJob_known _ _ _ He). cbn [fst].
    rewrite (readJob_known _ _ _ He). cbn [fst]. eapply sim_inv; [eapply jobTimes_sim|]; eauto.
  - destruct HA as (e & He). injection H as <- <-. exists c.
    unfold jobLevel, jobStartTime. rewrite (readJob_known _ _ _ He). cbn [fst].
    rewrite (readJob_known _ _ _ He). eapply sim_inv; [apply readTime_sim|]; eauto.
  - injection H as <- <-. exists c. eapply sim_inv; [|exact HI]. eapply flat_spec. apply HI.
  - injection H as <- <-. exists c. eapply sim_inv; [|exact HI]. apply refTime_sim.
Qed.

Lemma created_inv ml tol d : created ml tol d -> exists c, Inv d c.
Proof.
  intros [times ss d0 H1 H2 H3|s prio d0 H].
  - destruct (created_data_inv _ _ _ _ _ H1 H2 H3) as (c & I & _). eauto.
  - destruct (created_start_inv _ _ _ _ _ H) as [I _]. eauto.
Qed.

Lemma history_inv d0 h d : history d0 h d -> (exists c, Inv d0 c) -> exists c, Inv d c.
Proof.
  intros H H0. induction H as [|h d1 k o d2 H IH HA HE]; auto.
  destruct IH as (c & I). eapply exec_inv; eauto.
Qed.

Lemma reachable_inv d : reachable d -> exists c, Inv d c.
Proof.
  intros (ml & tol & d0 & h & Hc & Hh). eapply history_inv; eauto. eapply created_inv; eauto.
Qed.
End Inv.
